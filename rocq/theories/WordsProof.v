(** Proofs about wrap_words. *)
From Verif Require Import PyBaseProof SplitModel DelimProof DelimProps LinesModel LinesSpec LinesProof WordsModel WordsSpec.

Lemma sentence_end_iff w : existsb (fun p => ends_with p w) sentence_ending_punctuation = true <-> sentence_end w.
Proof.
  unfold sentence_ending_punctuation, sentence_end. rewrite existsb_exists. split.
  - intros (p & I & E). apply ends_with_iff in E. destruct E as [r ->]. cbn in I. destruct I as [<-|[<-|[<-|[]]]]; eexists r, _; (split; [reflexivity|cbn; auto]).
  - intros (r & p & -> & I). exists [p]. split; [|apply ends_with_iff; eauto]. cbn in *. destruct I as [<-|[<-|[<-|[]]]]; auto.
Qed.
Lemma gap_true last : gap true last (if existsb (fun p => ends_with p last) sentence_ending_punctuation then spaces 2 else spaces 1).
Proof.
  unfold gap. destruct (existsb _ _) eqn:E.
  - left. apply sentence_end_iff in E. auto.
  - right. split; auto. intros [_ H]. apply sentence_end_iff in H. congruence.
Qed.
Lemma gap_unique two last g1 g2 : gap two last g1 -> gap two last g2 -> g1 = g2.
Proof. intros [(A & B & ->)|(A & ->)] [(C & D & ->)|(C & ->)]; auto; exfalso; auto. Qed.

Section Line.
  Context (two : bool).
  Lemma line_nonempty ws t l : line_of two ws t l -> ws <> [].
  Proof. intros []; try discriminate; intros E; apply app_eq_nil in E; destruct E; discriminate. Qed.
  Lemma line_empty ws t l : line_of two ws t l -> t = [] -> forall x, In x ws -> x = [].
  Proof.
    induction 1 as [w|ws last w H IH|ws t last g w H IH N G]; intros E x I; subst.
    - cbn in I. intuition congruence.
    - apply in_app_iff in I. destruct I as [I|[<-|[]]]; auto.
    - apply app_eq_nil in E. tauto.
  Qed.
  Lemma line_snoc ws w t l : line_of two (ws ++ [w]) t l -> l = w /\
    ((ws = [] /\ t = w) \/ (exists last, line_of two ws [] last /\ t = w) \/ exists t0 last g, line_of two ws t0 last /\ t0 <> [] /\ gap two last g /\ t = t0 ++ g ++ w).
  Proof.
    intros H. inversion H as [w' E|ws' last w' H' E|ws' t0 last g w' H' N G E]; subst.
    - destruct ws as [|? [|]]; [injection E as <-; auto|discriminate E|discriminate E].
    - apply app_inj_tail in E. destruct E as [-> ->]. eauto 8.
    - apply app_inj_tail in E. destruct E as [-> ->]. eauto 12.
  Qed.
  Lemma line_unique ws : forall t1 l1 t2 l2, line_of two ws t1 l1 -> line_of two ws t2 l2 -> t1 = t2 /\ l1 = l2.
  Proof.
    induction ws as [|w ws IH] using rev_ind; intros t1 l1 t2 l2 H1 H2; [apply line_nonempty in H1; congruence|].
    apply line_snoc in H1, H2. destruct H1 as [-> H1], H2 as [-> H2]. split; auto.
    destruct H1 as [[-> ->]|[(last & A & ->)|(t & last & g & A & N & G & ->)]], H2 as [[E2 ->]|[(last' & A' & ->)|(t' & last' & g' & A' & N' & G' & ->)]]; auto; subst;
      try solve [now apply line_nonempty in A]; try solve [now apply line_nonempty in A'].
    - destruct (IH _ _ _ _ A A'); subst; contradiction.
    - destruct (IH _ _ _ _ A A'); subst; contradiction.
    - destruct (IH _ _ _ _ A A'); subst. now rewrite (gap_unique _ _ _ _ G G').
  Qed.
  Lemma line_longer ws1 t1 l1 w ws2 t2 l2 : line_of two ws1 t1 l1 -> line_of two (ws1 ++ w :: ws2) t2 l2 -> t1 <> [] ->
    exists g r, gap two l1 g /\ t2 = t1 ++ g ++ w ++ r.
  Proof.
    revert t2 l2. induction ws2 as [|w' ws2 IH] using rev_ind; intros t2 l2 H1 H2 N.
    - apply line_snoc in H2. destruct H2 as [-> [[-> ->]|[(last & A & ->)|(t & last & g & A & N' & G & ->)]]].
      + now apply line_nonempty in H1.
      + destruct (line_unique _ _ _ _ _ H1 A). subst. contradiction.
      + destruct (line_unique _ _ _ _ _ H1 A). subst. exists g, []. now rewrite app_nil_r.
    - rewrite app_comm_cons, app_assoc in H2. apply line_snoc in H2. destruct H2 as [-> [[E ->]|[(last & A & ->)|(t & last & g & A & N' & G & ->)]]].
      + destruct ws1; discriminate.
      + destruct (IH _ _ H1 A N) as (g & r & _ & E). symmetry in E. apply app_eq_nil in E. destruct E. contradiction.
      + destruct (IH _ _ H1 A N) as (g' & r & G' & ->). exists g', (r ++ g ++ w'). split; auto. now rewrite <- !app_assoc.
  Qed.
End Line.

Section Filled.
  Context (two : bool) (margin : Z).
  Lemma filled_nil lines : filled two margin [] lines -> lines = [].
  Proof. intros H. inversion H as [|ws t l A|ws t l w rest lines' A B C D E]; subst; auto; [now apply line_nonempty in A|destruct ws; discriminate]. Qed.
  Lemma filled_nonempty ws lines : filled two margin ws lines -> ws <> [] -> lines <> [].
  Proof. intros F N. destruct F; congruence. Qed.
  Lemma overflow ws1 t1 l1 w ws2 t2 l2 : line_of two ws1 t1 l1 -> no_room two margin t1 l1 w -> line_of two (ws1 ++ w :: ws2) t2 l2 -> fits margin (ws1 ++ w :: ws2) t2 -> False.
  Proof.
    intros H1 [N (g & G & L)] H2 F. destruct (line_longer _ _ _ _ _ _ _ _ H1 H2 N) as (g' & r & G' & ->). rewrite (gap_unique _ _ _ _ G' G) in *.
    destruct F as [F|(e & w' & E & F)].
    - rewrite !app_length in F. lia.
    - assert (exists x ws', ws1 = ws' ++ x /\ x <> []) as _ by (exists ws1, []; split; auto; eapply line_nonempty; eauto).
      assert (Ie : forall x, In x ws1 -> In x e).
      { intros x I. destruct ws2 as [|y ws2 _] using rev_ind.
        - apply app_inj_tail in E. destruct E as [-> _]. auto.
        - rewrite app_comm_cons, app_assoc in E. apply app_inj_tail in E. destruct E as [<- _]. apply in_app_iff. auto. }
      apply N. assert (Z : forall x, In x ws1 -> x = []) by auto. clear - H1 Z.
      induction H1 as [w|ws last w H IH|ws t last g w H IH N G]; [apply Z; left; auto|apply Z, in_app_iff; right; left; auto|].
      exfalso. apply N, IH. intros x I. apply Z, in_app_iff. auto.
  Qed.
  Lemma app_cons_split {A} (a b : list A) x y r s : a ++ x :: r = b ++ y :: s -> (a = b /\ x = y /\ r = s) \/ (exists c, b = a ++ x :: c /\ r = c ++ y :: s) \/ (exists c, a = b ++ y :: c /\ s = c ++ x :: r).
  Proof.
    revert b. induction a as [|z a IH]; intros [|z' b] E; cbn in *.
    - injection E as -> ->. auto.
    - injection E as -> ->. right. left. eauto.
    - injection E as -> <-. right. right. eauto.
    - injection E as -> E. apply IH in E. destruct E as [(-> & -> & ->)|[(c & -> & ->)|(c & -> & ->)]]; [auto|right; left; eauto|right; right; eauto].
  Qed.
  Lemma filled_unique ws l1 : filled two margin ws l1 -> forall l2, filled two margin ws l2 -> l1 = l2.
  Proof.
    induction 1 as [|ws t last A F|ws t last w rest lines A F R H IH]; intros l2 H2.
    - now apply filled_nil in H2.
    - inversion H2 as [E|ws' t' last' A' F' E|ws' t' last' w' rest' lines' A' F' R' H' E]; subst.
      + now apply line_nonempty in A.
      + destruct (line_unique _ _ _ _ _ _ A A'). congruence.
      + exfalso. exact (overflow _ _ _ _ _ _ _ A' R' A F).
    - inversion H2 as [E|ws' t' last' A' F' E|ws' t' last' w' rest' lines' A' F' R' H' E]; subst.
      + destruct ws; discriminate.
      + exfalso. exact (overflow _ _ _ _ _ _ _ A R A' F').
      + apply app_cons_split in E. destruct E as [(-> & -> & ->)|[(c & -> & ->)|(c & -> & ->)]].
        * destruct (line_unique _ _ _ _ _ _ A A'). subst. f_equal. auto.
        * exfalso. exact (overflow _ _ _ _ _ _ _ A' R' A F).
        * exfalso. exact (overflow _ _ _ _ _ _ _ A R A' F').
  Qed.
  Lemma wrapped_unique blank ws o1 : wrapped two margin blank ws o1 -> forall o2, wrapped two margin blank ws o2 -> o1 = o2.
  Proof.
    induction 1 as [ws lines B F|ws lines b rest out B F Bb H IH]; intros o2 H2.
    - inversion H2 as [ws' lines' B' F' E|ws' lines' b rest' out' B' F' Bb H' E]; subst; [now rewrite (filled_unique _ _ F _ F')|].
      rewrite (B b) in Bb; [discriminate|]. apply in_app_iff. right. left. auto.
    - inversion H2 as [ws' lines' B' F' E|ws' lines' b' rest' out' B' F' Bb' H' E]; subst.
      + rewrite (B' b) in Bb; [discriminate|]. apply in_app_iff. right. left. auto.
      + apply app_cons_split in E. destruct E as [(-> & -> & ->)|[(c & -> & ->)|(c & -> & ->)]].
        * rewrite (filled_unique _ _ F _ F'). now rewrite (IH _ H').
        * rewrite (B b') in Bb'; [discriminate|]. apply in_app_iff. right. left. auto.
        * rewrite (B' b) in Bb; [discriminate|]. apply in_app_iff. right. left. auto.
  Qed.
  Lemma join_cons (sep x : str) l : l <> [] -> join sep (x :: l) = x ++ sep ++ join sep l.
  Proof. destruct l; [congruence|reflexivity]. Qed.
  Lemma wrapped_more blank ws t last w rest out : (forall x, In x ws -> blank x = false) -> blank w = false -> line_of two ws t last -> fits margin ws t -> no_room two margin t last w ->
    wrapped two margin blank (w :: rest) out -> wrapped two margin blank (ws ++ w :: rest) (t ++ [10%N] ++ out).
  Proof.
    intros Bs Bw A F R H. inversion H as [ws' lines B' F' E|ws' lines b rest' out' B' F' Bb H' E]; subst.
    - rewrite <- join_cons by (eapply filled_nonempty; eauto; discriminate). constructor; [|econstructor; eauto].
      intros x I. apply in_app_iff in I. destruct I; auto.
    - destruct ws' as [|w' ws']; cbn in E; injection E as -> E; [congruence|]. subst rest.
      assert (X : t ++ [10%N] ++ join [10%N] lines ++ b ++ out' = join [10%N] (t :: lines) ++ b ++ out').
      { rewrite join_cons by (eapply filled_nonempty; eauto; discriminate). now rewrite <- !app_assoc. }
      rewrite X. change (ws ++ w :: ws' ++ b :: rest') with (ws ++ (w :: ws') ++ b :: rest'). rewrite app_assoc. constructor; auto; [|econstructor; eauto].
      intros x I. apply in_app_iff in I. destruct I; auto.
  Qed.
End Filled.

Lemma wrap_loop_wrapped is_bytes margin words : forall ws t last, ws = [] /\ t = [] \/ line_of true ws t last /\ fits margin ws t ->
  (forall x, In x ws -> isspace is_bytes x = false) ->
  wrapped true margin (isspace is_bytes) (ws ++ words) (t ++ concat (wrap_loop is_bytes margin (spaces 2) words (Z.of_nat (length t)) last)).
Proof.
  assert (One : forall x : str, fits margin [x] x) by (intros x; right; exists [], x; split; auto; intros ? []).
  induction words as [|w words IH]; intros ws t last H B; cbn [wrap_loop].
  - cbn [concat]. rewrite !app_nil_r. destruct H as [[-> ->]|[H F]]; [apply (wrapped_end true margin (isspace is_bytes) [] []); [intros ? []|constructor]|].
    apply (wrapped_end true margin (isspace is_bytes) ws [t]); auto. econstructor; eauto.
  - destruct (isspace is_bytes w) eqn:Sp.
    + cbn [concat]. assert (X : exists lines, filled true margin ws lines /\ join [10%N] lines = t).
      { destruct H as [[-> ->]|[H F]]; [exists []; split; auto; constructor|exists [t]; split; auto; econstructor; eauto]. }
      destruct X as (lines & Fl & <-). apply wrapped_blank; auto. apply (IH [] [] w); auto. intros ? [].
    + cbn [negb is_nil spaces repeat andb]. change ([32; 32]%N) with (spaces 2). change [32%N] with (spaces 1).
      pose proof (gap_true last) as G.
      set (g := if existsb (fun p => ends_with p last) sentence_ending_punctuation then spaces 2 else spaces 1) in *.
      assert (X : (if existsb (fun p => ends_with p last) sentence_ending_punctuation then (spaces 2, 2%Z) else (spaces 1, 1%Z)) = (g, Z.of_nat (length g))) by (subst g; destruct (existsb _ _); reflexivity).
      rewrite X. clear X. assert (Bw : forall x, In x (ws ++ [w]) -> isspace is_bytes x = false) by (intros x I; apply in_app_iff in I; destruct I as [I|[<-|[]]]; auto).
      assert (B1 : forall x, In x [w] -> isspace is_bytes x = false) by (intros x [<-|[]]; auto).
      destruct t as [|c t].
      * change (Z.of_nat (length [])) with 0%Z. cbn [Z.eqb].
        assert (Y : forall b : bool, (if b then (@nil str, 0%Z) else ([], 0%Z)) = ([], 0%Z)) by (intros []; reflexivity). rewrite Y. cbn [app concat].
        assert (L : line_of true (ws ++ [w]) w w /\ fits margin (ws ++ [w]) w).
        { destruct H as [[-> _]|[H F]]; [split; [constructor|apply One]|]. split; [econstructor; eauto|]. right. exists ws, w. split; auto. eapply line_empty; eauto. }
        specialize (IH (ws ++ [w]) w w (or_intror L) Bw). rewrite <- app_assoc in IH. exact IH.
      * destruct H as [[_ H]|[H F]]; [discriminate|]. remember (c :: t) as tx eqn:Et. assert (Nt : tx <> []) by (subst; discriminate).
        assert (Z.of_nat (length tx) =? 0 = false)%Z as -> by (subst; cbn [length]; lia).
        destruct (margin <? _)%Z eqn:M.
        -- cbn [app concat]. apply wrapped_more with (last := last); auto.
           { split; auto. exists g. split; auto. apply Z.ltb_lt in M. lia. }
           rewrite Z.add_0_l. apply (IH [w] w w); auto. right. split; [constructor|apply One].
        -- cbn [app concat].
           assert (L : line_of true (ws ++ [w]) (tx ++ g ++ w) w /\ fits margin (ws ++ [w]) (tx ++ g ++ w)).
           { split; [econstructor; eauto|]. left. apply Z.ltb_ge in M. rewrite !app_length. lia. }
           specialize (IH (ws ++ [w]) (tx ++ g ++ w) w (or_intror L) Bw). rewrite <- !app_assoc in IH. rewrite !app_length in IH. rewrite !Nat2Z.inj_add in IH. rewrite Z.add_assoc in IH. exact IH.
Qed.
Theorem wrap_words_wrapped is_bytes words margin two out :
  wrap_words is_bytes words margin two = Ok out <-> words <> [] /\ wrapped true margin (isspace is_bytes) words out.
Proof.
  assert (W : words <> [] -> exists o, wrap_words is_bytes words margin two = Ok o /\ wrapped true margin (isspace is_bytes) words o).
  { intros N. destruct words as [|w words]; [congruence|]. eexists. split; [reflexivity|]. apply (wrap_loop_wrapped is_bytes margin (w :: words) [] [] []); auto. intros ? []. }
  split.
  - intros E. assert (N : words <> []) by (intros ->; discriminate E). split; auto. destruct (W N) as (o & E' & H). rewrite E in E'. apply Ok_inj in E'. now subst.
  - intros [N H]. destruct (W N) as (o & -> & H'). f_equal. eapply wrapped_unique; eauto.
Qed.
