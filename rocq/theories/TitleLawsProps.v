(** C142: the laws of split_title_case. *)
From Verif Require Import PyBase PyStr WordsModel WordsSpec WordsProps CombineModel CombineSpec CombineProof CombineProps LawsProof.
Local Open Scope nat_scope.

Section Laws.
  Context (isupper islower : chr -> bool) (Ex : forall c, isupper c = true -> islower c = true -> False).
  Notation title allcaps s := (split_title_case isupper islower s allcaps).
  Notation boundary allcaps := (word_boundary isupper islower allcaps).
  Lemma firstn_len {A} (a b : list A) : firstn (length a) (a ++ b) = a.
  Proof. now rewrite firstn_app, Nat.sub_diag, firstn_all, firstn_O, app_nil_r. Qed.
  Lemma skipn_len {A} (a b : list A) : skipn (length a) (a ++ b) = b.
  Proof. now rewrite skipn_app, Nat.sub_diag, skipn_all. Qed.
  Lemma cut_form (words : list str) i : 0 < i < length (concat words) -> Forall (fun w : str => w <> []) words ->
    (exists a b, words = a ++ b /\ concat a = firstn i (concat words) /\ b <> []) <-> cut words i.
  Proof.
    intros K F. split.
    - intros (a & b & E & Ea & _). exists a, b. split; auto. rewrite Ea, firstn_length. lia.
    - intros (a & b & E & L). exists a, b. split; auto. subst words. rewrite concat_app in *. rewrite <- L, firstn_len. split; auto. intros ->. cbn in K. rewrite app_nil_r in K. lia.
  Qed.
  Lemma title_cuts allcaps s : s <> [] -> concat (title allcaps s) = s /\ Forall (fun w : str => w <> []) (title allcaps s) /\
    forall i, 0 < i < length s -> (cut (title allcaps s) i <-> boundary allcaps (firstn i s) (skipn i s)).
  Proof.
    intros N. destruct (C47_title_case isupper islower allcaps s Ex N) as (E & F & C). split; auto. split; auto. intros i K. rewrite <- C by auto.
    pose proof (cut_form (title allcaps s) i) as X. rewrite E in X. symmetry. apply X; auto.
  Qed.
  Lemma title_is allcaps s words : s <> [] -> concat words = s -> Forall (fun w : str => w <> []) words ->
    (forall i, 0 < i < length s -> (cut words i <-> boundary allcaps (firstn i s) (skipn i s))) -> title allcaps s = words.
  Proof.
    intros N E F C. destruct (title_cuts allcaps s N) as (E' & F' & C'). apply pieces_unique; auto; [congruence|].
    intros k K. rewrite E' in K. rewrite C', C by auto. tauto.
  Qed.
  Lemma boundary_more allcaps x b a y : b <> [] -> boundary allcaps b a -> boundary allcaps (x ++ b) (a ++ y).
  Proof.
    intros N (b0 & p & c & a0 & -> & -> & U & H). exists (x ++ b0), p, c, (a0 ++ y). rewrite <- app_assoc. split; auto. split; auto. split; auto.
    destruct H as [H|(A & P & n & a' & -> & Ln)]; auto. right. split; auto. split; auto. exists n, (a' ++ y). auto.
  Qed.
  Lemma not_inside A w B i : 0 < i < length w -> ~ cut (A ++ w :: B) (length (concat A) + i).
  Proof.
    intros K. induction A as [|a A IH]; cbn [app concat length].
    - intros X. apply cut_cons in X. lia.
    - intros X. apply cut_cons in X. rewrite app_length in X. destruct X as [X|[_ X]]; [lia|]. apply IH. replace (length (concat A) + i) with (length a + length (concat A) + i - length a) by lia. exact X.
  Qed.
  Lemma cut_app A B i : 0 < i -> cut (A ++ B) (length (concat A) + i) <-> cut B i.
  Proof.
    intros K. induction A as [|a A IH]; cbn [app concat length]; [tauto|]. rewrite cut_cons, app_length.
    replace (length a + length (concat A) + i - length a) with (length (concat A) + i) by lia. rewrite IH.
    split; [intros [X|[_ X]]; [lia|auto]|intros X; right; split; [lia|auto]].
  Qed.
  Lemma cut_front (A B : list str) i : i < length (concat A) -> cut (A ++ B) i <-> cut A i.
  Proof.
    revert i. induction A as [|a A IH]; intros i K; cbn [app concat length] in *; [lia|]. rewrite app_length in K. rewrite !cut_cons.
    destruct (le_lt_dec (length a) i) as [L|L].
    - rewrite (IH (i - length a)) by lia. tauto.
    - split; intros [X|[X _]]; auto; lia.
  Qed.

  (** A word is not split again. *)
  Theorem C142_words_stay : forall allcaps s w, In w (title allcaps s) -> title allcaps w = [w].
  Proof.
    intros allcaps s w I. destruct s as [|c0 s0].
    { rewrite C47_empty in I. destruct I as [<-|[]]. apply C47_empty. }
    assert (N : c0 :: s0 <> []) by discriminate. set (s := c0 :: s0) in *. destruct (title_cuts allcaps s N) as (E & F & C).
    apply in_split in I. destruct I as (A & B & EW). rewrite EW in *.
    assert (Nw : w <> []) by (rewrite Forall_forall in F; apply F, in_app_iff; right; left; auto).
    apply title_is; auto; [cbn; apply app_nil_r|]. intros i K. split; [rewrite cut_cons; intros [X|[X _]]; lia|]. intros Bd. exfalso.
    apply (not_inside A w B i K). rewrite concat_app in E. cbn [concat] in E. apply C; [rewrite <- E, !app_length; lia|].
    rewrite <- E, firstn_app, skipn_app.
    replace (length (concat A) + i - length (concat A)) with i by lia. rewrite firstn_all2, skipn_all2 by lia. cbn [app].
    rewrite firstn_app, skipn_app. replace (i - length w) with 0 by lia. cbn [firstn skipn]. rewrite app_nil_r. apply boundary_more; auto.
    intros X. apply (f_equal (@length chr)) in X. rewrite firstn_length in X. cbn in X. lia.
  Qed.
  (** split_allcaps=True splits where split_allcaps=False does, and perhaps elsewhere. *)
  Theorem C142_allcaps_refines : forall s, s <> [] -> combine_splits s [title false s; title true s] = (title true s, None).
  Proof.
    intros s N. destruct (title_cuts false s N) as (E1 & F1 & C1), (title_cuts true s N) as (E2 & F2 & C2).
    apply combine_is; auto; [intros a [<-|[<-|[]]]; auto|]. intros k K. split; [intros X; eexists; split; [right; left; reflexivity|auto]|].
    intros (a & [<-|[<-|[]]] & X); auto. apply C2; auto. apply C1 in X; auto. destruct X as (b & p & c & a & Eb & Ea & U & [L|(Q & _)]); [|discriminate].
    exists b, p, c, a. auto.
  Qed.
  (** A text can be split in parts exactly if it is cut where a word begins. *)
  Theorem C142_parts : forall allcaps s1 s2, s1 <> [] -> s2 <> [] ->
    title allcaps (s1 ++ s2) = title allcaps s1 ++ title allcaps s2 <-> boundary allcaps s1 s2.
  Proof.
    intros allcaps s1 s2 N1 N2. destruct (title_cuts allcaps s1 N1) as (E1 & F1 & C1), (title_cuts allcaps s2 N2) as (E2 & F2 & C2).
    assert (N : s1 ++ s2 <> []) by (intros X; apply app_eq_nil in X; destruct X; congruence).
    assert (L1 : 0 < length s1) by (destruct s1; [congruence|cbn; lia]). assert (L2 : 0 < length s2) by (destruct s2; [congruence|cbn; lia]).
    split.
    - intros E. destruct (title_cuts allcaps (s1 ++ s2) N) as (_ & _ & C). specialize (C (length s1)). rewrite firstn_len, skipn_len in C.
      apply C; [rewrite app_length; lia|]. rewrite E. exists (title allcaps s1), (title allcaps s2). split; auto. now rewrite E1.
    - intros Bd. apply title_is; auto; [now rewrite concat_app, E1, E2|now apply Forall_app|]. intros i K. rewrite app_length in K.
      rewrite firstn_app, skipn_app. destruct (Nat.lt_trichotomy i (length s1)) as [X|[X|X]].
      + rewrite cut_front by (rewrite E1; exact X). rewrite C1 by lia. replace (i - length s1) with 0 by lia. cbn [firstn skipn]. rewrite app_nil_r.
        split; [intros H; apply (boundary_more allcaps [] (firstn i s1) (skipn i s1) s2) in H; auto; intros Y; apply (f_equal (@length chr)) in Y; rewrite firstn_length in Y; cbn in Y; lia|].
        intros (b & p & c & a & Eb & Ea & U & H). destruct (skipn i s1) as [|c1 r] eqn:Sk; [apply (f_equal (@length chr)) in Sk; rewrite skipn_length in Sk; cbn in Sk; lia|].
        cbn in Ea. injection Ea as <- Er. exists b, p, c1, r. split; auto. split; auto. split; auto. destruct H as [H|(Q & P & n & a' & Ea & Ln)]; auto.
        right. split; auto. split; auto. destruct r as [|n1 r].
        * exfalso. destruct Bd as (b' & p' & c' & a'' & _ & Es & U' & _). cbn in Er. subst s2. rewrite <- Er in Ea. injection Ea as -> _. exact (Ex _ U' Ln).
        * cbn in Er. rewrite <- Er in Ea. injection Ea as -> _. eauto.
      + subst i. rewrite Nat.sub_diag. rewrite firstn_all, skipn_all. cbn [firstn skipn app]. rewrite app_nil_r.
        split; auto. intros _. exists (title allcaps s1), (title allcaps s2). split; auto. now rewrite E1.
      + rewrite firstn_all2, skipn_all2 by lia. cbn [app].
        pose proof (cut_app (title allcaps s1) (title allcaps s2) (i - length s1)) as Cx. rewrite E1 in Cx.
        replace (length s1 + (i - length s1)) with i in Cx by lia. rewrite Cx by lia. rewrite C2 by lia.
        assert (Nf : firstn (i - length s1) s2 <> []) by (intros Y; apply (f_equal (@length chr)) in Y; rewrite firstn_length in Y; cbn in Y; lia).
        split.
        * intros H. rewrite <- (app_nil_r (skipn (i - length s1) s2)). apply boundary_more; auto.
        * intros (b & p & c & a & Eb & Ea & H). destruct (exists_last Nf) as (b' & p' & Ef). rewrite Ef in Eb |- *. rewrite app_assoc in Eb. apply app_inj_tail in Eb. destruct Eb as [_ ->].
          exists b', p, c, a. auto.
  Qed.

  (** The title case of words - an upper-case letter and then lower-case letters - is split into
      these words, unless two words of one letter follow each other; if the first word is
      lower-case (camelCase), too.  With split_allcaps=False only the last word can have one letter. *)
  Definition title_word (w : str) : Prop := exists c r, w = c :: r /\ isupper c = true /\ Forall (fun x => islower x = true) r.
  Definition one_letter (w : str) : Prop := length w = 1.
  Lemma lower_not_upper x : islower x = true -> isupper x = false.
  Proof. intros H. destruct (isupper x) eqn:U; auto. exfalso. exact (Ex x U H). Qed.
  Lemma no_boundary allcaps c r i : Forall (fun x => islower x = true) r -> 0 < i < length (c :: r) -> ~ boundary allcaps (firstn i (c :: r)) (skipn i (c :: r)).
  Proof.
    intros F K (b & p & x & a & _ & Ea & U & _). destruct i as [|i]; [lia|]. cbn [skipn] in Ea.
    assert (I : In x r) by (rewrite <- (firstn_skipn i r), Ea; apply in_app_iff; right; left; auto). rewrite Forall_forall in F. exact (Ex x U (F x I)).
  Qed.
  Lemma one_word allcaps c r : Forall (fun x => islower x = true) r -> title allcaps (c :: r) = [c :: r].
  Proof.
    intros F. apply title_is; [discriminate|cbn; now rewrite app_nil_r|repeat constructor; discriminate|]. intros i K. split; [rewrite cut_cons; intros [X|[X _]]; lia|].
    intros B. elim (no_boundary allcaps c r i F K B).
  Qed.
  Lemma lower_before allcaps w v c a : w <> [] -> (exists b p, w = b ++ [p] /\ islower p = true) -> v = c :: a -> isupper c = true -> boundary allcaps w v.
  Proof. intros N (b & p & -> & L) -> U. exists b, p, c, a. auto. Qed.
  Lemma words_round_trip allcaps : forall words, words <> [] -> Forall title_word words ->
    (forall a x y b, words = a ++ x :: y :: b -> one_letter x -> allcaps = true /\ ~ one_letter y) -> title allcaps (concat words) = words.
  Proof.
    induction words as [|w words IH]; intros N F A; [congruence|]. inversion F as [|? ? W F']; subst. destruct W as (c & r & -> & U & L).
    destruct words as [|w2 words]; [cbn [concat]; rewrite app_nil_r; now apply one_word|].
    inversion F' as [|? ? (c2 & r2 & -> & U2 & L2) F2]; subst.
    assert (X : title allcaps ((c :: r) ++ concat ((c2 :: r2) :: words)) = title allcaps (c :: r) ++ title allcaps (concat ((c2 :: r2) :: words))).
    { apply C142_parts; [discriminate|discriminate|]. destruct r as [|r0 r'].
      - destruct (A [] [c] (c2 :: r2) words eq_refl eq_refl) as [Q S]. destruct r2 as [|n r2]; [elim S; reflexivity|].
        exists [], c, c2, ((n :: r2) ++ concat words). split; auto. split; auto. split; auto. right. split; auto. split; auto. exists n, (r2 ++ concat words). split; auto. now inversion L2.
      - apply lower_before with c2 (r2 ++ concat words); auto; [discriminate|].
        destruct (@exists_last _ (r0 :: r') ltac:(discriminate)) as (b & p & E). exists (c :: b), p. rewrite E. split; auto. rewrite E in L. apply Forall_app in L. destruct L as [_ L]. now inversion L. }
    change (concat ((c :: r) :: (c2 :: r2) :: words)) with ((c :: r) ++ concat ((c2 :: r2) :: words)). etransitivity; [exact X|]. rewrite one_word by auto.
    assert (T : title allcaps (concat ((c2 :: r2) :: words)) = (c2 :: r2) :: words); [|cbn [app]; f_equal; exact T].
    apply IH; auto; [discriminate|].
    intros a x y b E O. apply (A ((c :: r) :: a) x y b); auto. cbn. now rewrite E.
  Qed.
  Theorem C142_round_trip : forall words, words <> [] -> Forall title_word words ->
    ((forall a x y b, words = a ++ x :: y :: b -> ~ (one_letter x /\ one_letter y)) -> title true (concat words) = words) /\
    ((forall a x y b, words = a ++ x :: y :: b -> ~ one_letter x) -> title false (concat words) = words).
  Proof.
    intros words N F. split; intros A; apply words_round_trip; auto.
    - intros a x y b E O. split; auto. intros O2. exact (A a x y b E (conj O O2)).
    - intros a x y b E O. elim (A a x y b E O).
  Qed.
  Theorem C142_camel_case : forall allcaps first words, first <> [] -> Forall (fun x => islower x = true) first -> words <> [] -> Forall title_word words ->
    title allcaps (first ++ concat words) = first :: title allcaps (concat words).
  Proof.
    intros allcaps first words N L NW F. destruct words as [|w words]; [congruence|]. inversion F as [|? ? (c & r & -> & U & _) F']; subst.
    assert (X : title allcaps (first ++ concat ((c :: r) :: words)) = title allcaps first ++ title allcaps (concat ((c :: r) :: words))).
    { apply C142_parts; [auto|discriminate|]. apply lower_before with c (r ++ concat words); auto.
      destruct (exists_last N) as (b & p & E). exists b, p. split; auto. rewrite E in L. apply Forall_app in L. destruct L as [_ L]. now inversion L. }
    etransitivity; [exact X|]. destruct first as [|c0 r0]; [congruence|]. rewrite one_word; [reflexivity|now inversion L].
  Qed.
End Laws.
Print Assumptions C142_words_stay.
Print Assumptions C142_allcaps_refines.
Print Assumptions C142_parts.
Print Assumptions C142_round_trip.
Print Assumptions C142_camel_case.

(** ASCII letters *)
Definition ascii_upper (c : chr) : bool := ((65 <=? c) && (c <=? 90))%N.
Definition ascii_lower (c : chr) : bool := ((97 <=? c) && (c <=? 122))%N.
(** two words of one letter cannot be told apart *)
Theorem C142_one_letter_refuted : title_word ascii_upper ascii_lower (u "A") /\ title_word ascii_upper ascii_lower (u "I") /\
  split_title_case ascii_upper ascii_lower (concat [u "A"; u "I"]) true = [u "AI"].
Proof. split; [|split]; [exists 65%N, []; repeat split; constructor|exists 73%N, []; repeat split; constructor|vm_compute; reflexivity]. Qed.
Print Assumptions C142_one_letter_refuted.
Example C142_witness :
  split_title_case ascii_upper ascii_lower (concat [u "When"; u "I"; u "Was"; u "A"; u "Teapot"]) true = [u "When"; u "I"; u "Was"; u "A"; u "Teapot"] /\
  split_title_case ascii_upper ascii_lower (u "WhenIWasATeapot") false = [u "When"; u "IWas"; u "ATeapot"] /\
  split_title_case ascii_upper ascii_lower (u "camelCase") true = [u "camel"; u "Case"] /\
  (forall c, ascii_upper c = true -> ascii_lower c = true -> False).
Proof.
  split; [|split; [|split]]; try (vm_compute; reflexivity). intros c. unfold ascii_upper, ascii_lower. intros A B. apply andb_true_iff in A, B.
  rewrite !N.leb_le in *. lia.
Qed.
