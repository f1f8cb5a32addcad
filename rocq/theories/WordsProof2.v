(** Proofs about the lines of wrap_words, split_title_case and gently_title. *)
From Verif Require Import PyBaseProof SplitModel DelimProof DelimProps LinesModel LinesSpec LinesProof WordsModel WordsSpec WordsProof.

(** * Lines of the output of wrap_words *)
Definition nl (c : chr) : bool := (c =? 10)%N.
Lemma split1_none p s : existsb p s = false -> split1 p s = [s].
Proof. induction s as [|c s IH]; auto. cbn. intros E. apply orb_false_iff in E. destruct E as [-> E]. now rewrite (IH E). Qed.
Lemma split1_nonempty p s : split1 p s <> [].
Proof. destruct s as [|c s]; cbn; [discriminate|]. destruct (p c); [discriminate|]. destruct (split1 p s); discriminate. Qed.
Lemma split1_app p a c b : p c = true -> split1 p (a ++ c :: b) = split1 p a ++ split1 p b.
Proof.
  intros H. induction a as [|x a IH]; cbn; [now rewrite H|]. destruct (p x); [now rewrite IH|]. rewrite IH.
  pose proof (split1_nonempty p a). destruct (split1 p a); [congruence|reflexivity].
Qed.
Section OutLines.
  Context (margin : Z).
  Definition good_line (words : list str) (line : str) : Prop := (Z.of_nat (length line) <= margin)%Z \/ line = [] \/ In line words.
  Lemma good_incl (a b : list str) line : incl a b -> good_line a line -> good_line b line.
  Proof. intros H [A|[A|A]]; [left|right; left|right; right]; auto. Qed.
  Lemma line_no_nl two ws t l : line_of two ws t l -> (forall w, In w ws -> existsb nl w = false) -> existsb nl t = false.
  Proof.
    induction 1 as [w|ws last w H IH|ws t last g w H IH N G]; intros B; [apply B; left; auto|apply B, in_app_iff; right; left; auto|].
    rewrite !existsb_app, IH by (intros; apply B, in_app_iff; auto). rewrite (B w) by (apply in_app_iff; right; left; auto).
    destruct G as [(_ & _ & ->)|(_ & ->)]; reflexivity.
  Qed.
  Lemma line_single two (e : list str) w t l : line_of two (e ++ [w]) t l -> (forall x, In x e -> x = []) -> t = w.
  Proof.
    intros H Z. apply line_snoc in H. destruct H as [_ [[_ H]|[(? & _ & H)|(t0 & last & g & H & N & _)]]]; auto. exfalso. apply N. clear N w.
    induction H as [w|ws last w H IH|ws t1 last g' w H IH N G]; [apply Z; left; auto|apply Z, in_app_iff; right; left; auto|].
    exfalso. apply N, IH. intros x I. apply Z, in_app_iff. auto.
  Qed.
  Lemma filled_lines two ws lines : filled two margin ws lines -> (forall w, In w ws -> existsb nl w = false) -> forall line, In line (split1 nl (join [10%N] lines)) -> good_line ws line.
  Proof.
    assert (One : forall ws t l, line_of two ws t l -> fits margin ws t -> good_line ws t).
    { intros ws0 t l H [F|(e & w & -> & Z)]; [left; auto|right; right]. rewrite (line_single _ _ _ _ _ H Z). apply in_app_iff. right. left. auto. }
    induction 1 as [|ws t last A F|ws t last w rest lines A F R H IH]; intros B line I.
    - cbn in I. destruct I as [<-|[]]. right. left. auto.
    - cbn [join] in I. rewrite split1_none in I by (eapply line_no_nl; eauto). destruct I as [<-|[]]. eauto.
    - rewrite join_cons in I by (eapply filled_nonempty; eauto; discriminate).
      change (t ++ [10%N] ++ join [10%N] lines) with (t ++ 10%N :: join [10%N] lines) in I. rewrite split1_app in I by reflexivity. apply in_app_iff in I.
      destruct I as [I|I].
      + rewrite split1_none in I by (eapply line_no_nl; [exact A|intros; apply B, in_app_iff; auto]). destruct I as [<-|[]]. eapply good_incl; [|eapply One; eauto]. apply incl_appl, incl_refl.
      + eapply good_incl; [|eapply IH; auto; intros; apply B, in_app_iff; auto]. apply incl_appr, incl_refl.
  Qed.
  Lemma split1_all p b r : b <> [] -> forallb p b = true -> forall a line, In line (split1 p (a ++ b ++ r)) -> In line (split1 p a) \/ line = [] \/ In line (split1 p r).
  Proof.
    intros N A. induction b as [|c b IH]; [congruence|]. intros a line I. cbn in A. apply andb_true_iff in A. destruct A as [C A].
    cbn [app] in I. rewrite split1_app in I by auto. apply in_app_iff in I. destruct I as [I|I]; auto. right. destruct b as [|c' b]; [cbn in I; auto|].
    destruct (IH ltac:(discriminate) A [] line I) as [H|H]; auto. cbn in H. destruct H as [<-|[]]. auto.
  Qed.
  Lemma wrapped_lines two blank ws out : wrapped two margin blank ws out -> (forall w, In w ws -> if blank w then w <> [] /\ forallb nl w = true else existsb nl w = false) ->
    forall line, In line (split1 nl out) -> good_line ws line.
  Proof.
    induction 1 as [ws lines B F|ws lines b rest out B F Bb H IH]; intros W line I.
    - eapply filled_lines; eauto. intros w Iw. specialize (W w Iw). now rewrite B in W.
    - assert (Wb := W b ltac:(apply in_app_iff; right; left; auto)). rewrite Bb in Wb. destruct Wb as [Nb Ab].
      apply split1_all in I; auto. destruct I as [I|[->|I]]; [|right; left; auto|].
      + eapply good_incl; [|eapply filled_lines; eauto; intros w Iw]; [apply incl_appl, incl_refl|]. specialize (W w ltac:(apply in_app_iff; auto)). now rewrite B in W.
      + eapply good_incl; [|eapply IH; eauto; intros w Iw; apply W, in_app_iff; right; right; auto]. intros x Ix. apply in_app_iff. right. right. auto.
  Qed.
End OutLines.

(** * split_title_case *)
Section Title.
  Context (isupper islower : chr -> bool) (allcaps : bool).
  Hypothesis exclusive : forall c, isupper c = true -> islower c = true -> False.
  Definition next_lower (s : str) : bool := match s with c :: _ => islower c | [] => false end.
  Definition flag (prev : option chr) (c : chr) (rest : str) : bool :=
    match prev with None => false | Some p => isupper c && (islower p || allcaps && isupper p && next_lower rest) end.
  Fixpoint flagged (prev : option chr) (s : str) : list (bool * chr) :=
    match s with [] => [] | c :: t => (flag prev c t, c) :: flagged (Some c) t end.
  Fixpoint group (word : str) (l : list (bool * chr)) : list str :=
    match l with
    | [] => if is_nil word then [] else [word]
    | (true, c) :: t => word :: group [c] t
    | (false, c) :: t => group (word ++ [c]) t
    end.
  Definition neither (p : option chr) : Prop := match p with None => True | Some c => isupper c = false /\ islower c = false end.
  Lemma title_loop_group s :
    (forall prev word, neither prev -> title_loop isupper islower allcaps s None word = group word (flagged prev s)) /\
    (forall p word, islower p = true -> title_loop isupper islower allcaps s (Some InLower) word = group word (flagged (Some p) s)) /\
    (forall m p w, isupper p = true -> (m = true -> w <> []) -> title_loop isupper islower allcaps s (Some (InUpper m)) (w ++ [p]) = group w ((m && next_lower s, p) :: flagged (Some p) s)).
  Proof.
    induction s as [|c s (IHn & IHl & IHu)].
    - cbn. split; [reflexivity|]. split; [reflexivity|]. intros m p w U N. rewrite andb_false_r. reflexivity.
    - assert (Top : forall word, title_loop isupper islower allcaps s (title_top isupper islower c) (word ++ [c]) = group (word ++ [c]) (flagged (Some c) s)).
      { intros word. unfold title_top. destruct (islower c) eqn:L; [now apply IHl|]. destruct (isupper c) eqn:U; [|apply IHn; cbn; auto].
        rewrite IHu by (auto; discriminate). reflexivity. }
      split; [|split].
      + intros prev word N. cbn [title_loop flagged]. assert (flag prev c s = false) as ->.
        { destruct prev as [p|]; auto. cbn in *. destruct N as [-> ->]. rewrite andb_false_r. cbn. apply andb_false_r. }
        cbn [group]. apply Top.
      + intros p word L. cbn [title_loop flagged]. unfold flag. rewrite L. cbn [orb]. rewrite andb_true_r. destruct (isupper c) eqn:U.
        * cbn [group]. f_equal. apply (Top []).
        * cbn [group]. destruct (islower c) eqn:Lc; [now apply IHl|apply Top].
      + intros m p w U N. cbn [title_loop flagged next_lower]. destruct (isupper c) eqn:Uc.
        * assert (islower c = false) as E by (destruct (islower c) eqn:L; auto; exfalso; eauto). rewrite E, andb_false_r. cbn [group].
          destruct s as [|d s'].
          { rewrite IHu; auto; [|destruct w; discriminate]. unfold flag. cbn [next_lower]. rewrite !andb_false_r, orb_false_r. assert (islower p = false) as -> by (destruct (islower p) eqn:L; auto; exfalso; eauto). now rewrite andb_false_r. }
          { rewrite IHu; auto; [|destruct w; discriminate]. unfold flag. rewrite Uc, U. assert (islower p = false) as -> by (destruct (islower p) eqn:L; auto; exfalso; eauto). cbn [andb orb]. now rewrite andb_true_r. }
        * assert (flag (Some p) c s = false) as -> by (unfold flag; now rewrite Uc). destruct (islower c) eqn:Lc; cbn [andb].
          -- destruct m; cbn [andb group].
             ++ rewrite removelast_last, last_last. rewrite (Top [p]). reflexivity.
             ++ rewrite Top. now rewrite <- app_assoc.
          -- rewrite andb_false_r. cbn [group]. rewrite Top. now rewrite <- app_assoc.
  Qed.
  Lemma group_concat l : forall word, concat (group word l) = word ++ map snd l.
  Proof.
    induction l as [|[[] c] l IH]; intros word; cbn [group map snd].
    - destruct word; cbn; now rewrite ?app_nil_r.
    - cbn [concat]. rewrite IH. reflexivity.
    - rewrite IH. now rewrite <- app_assoc.
  Qed.
  Lemma group_nonempty l : forall word, (word = [] -> match l with (b, _) :: _ => b = false | [] => True end) -> Forall (fun w : str => w <> []) (group word l).
  Proof.
    induction l as [|[[] c] l IH]; intros word H; cbn [group].
    - destruct word; repeat constructor. discriminate.
    - constructor; [intros ->; specialize (H eq_refl); discriminate|]. apply IH. discriminate.
    - apply IH. destruct word; discriminate.
  Qed.
  Lemma group_cuts l : forall word i, i < length l -> (word <> [] \/ 0 < i) -> (match l with (b, _) :: _ => word = [] -> b = false | [] => True end) ->
    ((exists a b, group word l = a ++ b /\ length (concat a) = length word + i /\ b <> []) <-> exists c, nth_error l i = Some (true, c)).
  Proof.
    induction l as [|[b c] l IH]; intros word i Hi Hw Hb; [cbn in Hi; lia|]. cbn [length] in Hi. destruct b; cbn [group].
    - assert (Nw : word <> []) by (intros E; specialize (Hb E); discriminate). destruct i as [|i].
      + split; [intros _; exists c; reflexivity|]. intros _. exists [word], (group [c] l). split; auto. split; [cbn; rewrite app_nil_r; lia|]. intros E.
        pose proof (group_concat l [c]) as G. rewrite E in G. discriminate.
      + cbn [nth_error]. rewrite <- (IH [c] i); [|lia|left; discriminate|destruct l as [|[]]; auto; discriminate]. cbn [length]. split.
        * intros (a & r & E & L & N). destruct a as [|x a]; [cbn in L; lia|]. injection E as <- E. exists a, r. split; auto. split; auto. cbn in L. rewrite app_length in L. unfold str, chr in *. lia.
        * intros (a & r & -> & L & N). exists (word :: a), r. split; auto. split; auto. cbn. rewrite app_length. unfold str, chr in *. lia.
    - destruct i as [|i].
      + destruct Hw as [Nw|Hw]; [|lia]. cbn [nth_error]. split; [|intros [? E]; discriminate]. intros (a & r & E & L & N). exfalso. rewrite Nat.add_0_r in L.
        assert (G : forall l word x rest, group word l = x :: rest -> exists t, x = word ++ t).
        { clear. induction l as [|[[] c] l IH]; intros word x rest E; cbn in E; [destruct word; [discriminate|injection E as <- _; exists []; now rewrite app_nil_r]|injection E as <- _; exists []; now rewrite app_nil_r|].
          apply IH in E. destruct E as [t ->]. exists (c :: t). now rewrite <- app_assoc. }
        destruct a as [|x a]; [destruct word; [congruence|discriminate]|]. apply G in E. destruct E as [t ->]. cbn in L. rewrite !app_length in L. cbn in L. unfold str, chr in *. lia.
      + cbn [nth_error]. assert (Ln : word ++ [c] <> []) by (destruct word; discriminate). rewrite <- (IH (word ++ [c]) i); [|lia|auto|destruct l as [|[]]; auto; intros; contradiction].
        rewrite app_length. cbn [length]. split; intros (a & r & E & L & N); exists a, r; (split; [auto|split; auto; unfold str, chr in *; lia]).
  Qed.
  Lemma flagged_snd prev s : map snd (flagged prev s) = s.
  Proof. revert prev. induction s as [|c s IH]; intros prev; cbn; [auto|]. now rewrite IH. Qed.
  Lemma flagged_nth s : forall prev i, (exists c, nth_error (flagged prev s) i = Some (true, c)) <->
    exists c, nth_error s i = Some c /\ flag (match i with O => prev | S j => nth_error s j end) c (skipn (S i) s) = true.
  Proof.
    induction s as [|c s IH]; intros prev i; cbn [flagged].
    - split; [intros [c E]; destruct i; discriminate|intros (c & E & _); destruct i; discriminate].
    - destruct i as [|i]; cbn [nth_error skipn].
      + split; [intros [d E]; injection E as E <-; eauto|intros (d & E & F); injection E as <-; rewrite F; eauto].
      + rewrite IH. destruct i; reflexivity.
  Qed.
  Lemma flag_boundary s i : 0 < i -> (exists c, nth_error s i = Some c /\ flag (match i with O => None | S j => nth_error s j end) c (skipn (S i) s) = true) <->
    word_boundary isupper islower allcaps (firstn i s) (skipn i s).
  Proof.
    intros Hi. destruct i as [|i]; [lia|]. split.
    - intros (c & E & F). unfold flag in F. destruct (nth_error s i) as [p|] eqn:P; [|discriminate]. apply andb_true_iff in F. destruct F as [U F].
      apply nth_error_split in P. destruct P as (b & r & -> & <-). exists b, p, c, (skipn (S (S (length b))) (b ++ p :: r)).
      rewrite nth_error_app2 in E by lia. replace (S (length b) - length b) with 1 in E by lia. cbn in E. destruct r as [|c' r]; [discriminate|]. injection E as ->.
      change (b ++ p :: c :: r) with (b ++ [p] ++ c :: r) in *. rewrite app_assoc in *.
      assert (L : S (length b) = length (b ++ [p])) by (rewrite app_length; cbn; lia).
      split; [rewrite L, firstn_app, firstn_all, Nat.sub_diag; apply app_nil_r|].
      assert (K : skipn (S (length b)) ((b ++ [p]) ++ c :: r) = c :: r) by (rewrite L, skipn_app, skipn_all, Nat.sub_diag; reflexivity).
      assert (K2 : skipn (S (S (length b))) ((b ++ [p]) ++ c :: r) = r).
      { replace (S (S (length b))) with (length ((b ++ [p]) ++ [c])) by (rewrite !app_length; cbn; lia). change (c :: r) with ([c] ++ r). rewrite app_assoc. rewrite skipn_app, skipn_all, Nat.sub_diag. reflexivity. }
      rewrite K, K2 in *. split; auto. split; auto. apply orb_true_iff in F. destruct F as [F|F]; auto. right. apply andb_true_iff in F. destruct F as [F N]. apply andb_true_iff in F. destruct F as [A B].
      split; auto. split; auto. destruct r as [|n r]; [discriminate|]. exists n, r. auto.
    - intros (b & p & c & a & E1 & E2 & U & D). assert (Es : s = b ++ p :: c :: a) by (rewrite <- (firstn_skipn (S i) s), E1, E2, <- app_assoc; reflexivity).
      assert (Li : i = length b).
      { assert (L : length (firstn (S i) s) = S (length b)) by (rewrite E1, app_length; cbn; lia). rewrite firstn_length in L.
        assert (S i <= length s); [|lia]. assert (LK : length (skipn (S i) s) = S (length a)) by (rewrite E2; reflexivity). rewrite skipn_length in LK. lia. }
      exists c. subst s. subst i. split.
      + rewrite nth_error_app2 by lia. replace (S (length b) - length b) with 1 by lia. reflexivity.
      + rewrite nth_error_app2 by lia. rewrite Nat.sub_diag. cbn [nth_error flag]. rewrite U. cbn [andb].
        assert (K2 : skipn (S (S (length b))) (b ++ p :: c :: a) = a).
        { replace (S (S (length b))) with (length (b ++ [p; c])) by (rewrite !app_length; cbn; lia). change (b ++ p :: c :: a) with (b ++ [p; c] ++ a). rewrite app_assoc. rewrite skipn_app, skipn_all, Nat.sub_diag. reflexivity. }
        rewrite K2. destruct D as [->|(-> & -> & n & a' & -> & N)]; auto. cbn. rewrite N. apply orb_true_r.
  Qed.
  Lemma split_title_spec s : s <> [] ->
    let words := split_title_case isupper islower s allcaps in
    concat words = s /\ Forall (fun w : str => w <> []) words /\
    forall i, 0 < i < length s -> ((exists a b, words = a ++ b /\ concat a = firstn i s /\ b <> []) <-> word_boundary isupper islower allcaps (firstn i s) (skipn i s)).
  Proof.
    intros N words. assert (words = group [] (flagged None s)) as -> by (destruct s; [congruence|]; apply (proj1 (title_loop_group _)); exact I).
    assert (F : match flagged None s with (b, _) :: _ => b = false | [] => True end) by (destruct s; cbn; auto).
    assert (Cc : concat (group [] (flagged None s)) = s) by (rewrite group_concat; apply flagged_snd).
    split; auto. split; [apply group_nonempty; auto|].
    intros i Hi. rewrite <- flag_boundary by lia. destruct i as [|i]; [lia|]. change (match S i with 0 => None | S j => nth_error s j end) with (match S i with 0 => @None chr | S j => nth_error s j end). rewrite <- flagged_nth with (prev := None).
    rewrite <- (group_cuts (flagged None s) [] (S i)); [|rewrite <- (map_length snd), flagged_snd; lia|right; lia|destruct (flagged None s) as [|[]]; auto].
    cbn [length Nat.add]. split; intros (a & b & E & L & Nb); exists a, b; (split; [auto|split; auto]).
    - rewrite L, firstn_length. lia.
    - rewrite <- Cc, E, concat_app, <- L, firstn_app, firstn_all, Nat.sub_diag. symmetry. apply app_nil_r.
  Qed.
End Title.
