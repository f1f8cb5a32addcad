(** lines_strip_indent follows the one-level rule (lemmas for C44). *)
From Verif Require Import LinesModel LinesSpec PyStrProof PyBaseProof DelimProof LinesProof.
Require Import ZifyBool ZifyNat.

Lemma firstn_mid {A} (a : list A) x l k : firstn (length a + S k) (a ++ x :: l) = (a ++ [x]) ++ firstn k l.
Proof. induction a as [|y a IH]; cbn; [reflexivity|]. f_equal. exact IH. Qed.
Section Indent.
  Context (is_bytes : bool) (start_column tab_width : Z) (T : (0 < tab_width)%Z).
  Notation width s := (Z.of_nat (length (expandtabs tab_width s))).
  Definition descending (l : list Z) : Prop := StronglySorted (fun a b => b < a)%Z l /\ Forall (fun x => 0 < x)%Z l.
  Lemma filter_all {A} (f : A -> bool) l : Forall (fun x => f x = true) l -> filter f l = l.
  Proof. induction 1 as [|x l H F IH]; cbn; auto. now rewrite H, IH. Qed.
  Lemma filter_none {A} (f : A -> bool) l : Forall (fun x => f x = false) l -> filter f l = [].
  Proof. induction 1 as [|x l H F IH]; cbn; auto. now rewrite H. Qed.
  Lemma dedent_small w below indent : Forall (fun x => x < w)%Z below -> dedent (start_column + w) (map (Z.add start_column) below) indent = Err IndentationError.
  Proof.
    intros F. revert indent. induction F as [|x l H F IH]; intros indent; cbn; auto. destruct (_ <=? _)%Z eqn:E; [lia|]. apply IH.
  Qed.
  Lemma existsb_small w l : Forall (fun x => x < w)%Z l -> existsb (Z.eqb w) l = false.
  Proof. induction 1 as [|x l H F IH]; cbn; auto. rewrite IH. lia. Qed.
  Lemma step_rule levels w leading : descending levels -> (0 <= w)%Z -> (leading = [] <-> w = 0%Z) ->
    indent_step start_column (start_column + w) leading (map (Z.add start_column) levels) (Z.of_nat (length levels)) =
    match one_level_rule levels w with Some ls => Ok (map (Z.add start_column) ls, Z.of_nat (length ls)) | None => Err IndentationError end /\
    match one_level_rule levels w with Some ls => descending ls | None => True end.
  Proof.
    intros [SS PP] W L. unfold indent_step, one_level_rule, python_rule. destruct (w =? 0)%Z eqn:W0.
    - assert (w = 0%Z) by lia. subst w. rewrite (proj2 L eq_refl). replace (start_column + 0 =? start_column)%Z with true by lia. cbn [is_nil orb Z.ltb Z.compare andb].
      rewrite filter_none by (eapply Forall_impl; [|exact PP]; intros; cbn in *; lia). split; auto. split; constructor.
    - replace (start_column + w =? start_column)%Z with false by lia. cbn [orb]. replace (0 <? w)%Z with true by lia. cbn [andb].
      destruct levels as [|top below]; [cbn; split; [f_equal; f_equal; lia|split; repeat constructor; lia]|].
      cbn [map]. inversion SS as [|? ? S1 S2]; subst. inversion PP as [|? ? P1 P2]; subst.
      destruct (start_column + top =? start_column + w)%Z eqn:E1; [assert (top = w) by lia; subst top|destruct (start_column + top <? start_column + w)%Z eqn:E2].
      + cbn [forallb existsb filter]. rewrite Z.ltb_irrefl, Z.eqb_refl, Z.leb_refl. cbn [andb orb].
        rewrite (filter_none _ below) by (eapply Forall_impl; [|exact S2]; intros; cbn in *; lia).
        rewrite (filter_all _ below) by (eapply Forall_impl; [|exact S2]; intros; cbn in *; lia). cbn. split; auto. split; auto.
      + assert (top < w)%Z by lia. assert (F : Forall (fun x => x < w)%Z (top :: below)) by (constructor; auto; eapply Forall_impl; [|exact S2]; intros; cbn in *; lia).
        rewrite (filter_none _ (top :: below)) by (eapply Forall_impl; [|exact F]; intros; cbn in *; lia). cbn [length Nat.leb].
        replace (forallb (fun l => l <? w)%Z (top :: below)) with true by (symmetry; apply forallb_forall; rewrite Forall_forall in F; intros x I; specialize (F x I); lia).
        split; [cbn [map length]; do 2 f_equal; lia|]. split; [constructor; auto|constructor; auto; lia].
      + assert (w < top)%Z by lia. cbn [filter]. replace (w <? top)%Z with true by lia. cbn [length forallb]. replace (top <? w)%Z with false by lia. cbn [andb existsb].
        replace (w =? top)%Z with false by lia. cbn [orb]. replace (top <=? w)%Z with false by lia. destruct below as [|l2 below].
        * cbn. auto.
        * cbn [map dedent]. inversion S1 as [|? ? S3 S4]; subst. inversion P2 as [|? ? P3 P4]; subst. destruct (start_column + w <=? start_column + l2)%Z eqn:E3.
          -- destruct (start_column + w <? start_column + l2)%Z eqn:E4.
             ++ cbn [filter]. replace (w <? l2)%Z with true by lia. cbn. auto.
             ++ assert (l2 = w) by lia. subst l2. cbn [filter existsb]. rewrite Z.ltb_irrefl, Z.eqb_refl, Z.leb_refl.
                rewrite (filter_none _ below) by (eapply Forall_impl; [|exact S4]; intros; cbn in *; lia).
                rewrite (filter_all _ below) by (eapply Forall_impl; [|exact S4]; intros; cbn in *; lia). cbn [length Nat.leb orb]. split; [cbn [map length]; do 2 f_equal; lia|]. split; auto.
          -- assert (F : Forall (fun x => x < w)%Z (l2 :: below)) by (constructor; [lia|]; eapply Forall_impl; [|exact S4]; intros; cbn in *; lia).
             rewrite (filter_none _ (l2 :: below)) by (eapply Forall_impl; [|exact F]; intros; cbn in *; lia). cbn [length Nat.leb].
             rewrite (existsb_small _ _ F). inversion F; subst. rewrite dedent_small by auto. auto.
  Qed.

  Fixpoint leading_space (s : str) : str := match s with c :: t => if white is_bytes c then c :: leading_space t else [] | [] => [] end.
  (** how far a line is indented; None if it is blank *)
  Definition indentation (line : str) : option Z := if forallb (white is_bytes) line then None else Some (width (leading_space line)).
  Lemma lstrip_leading s : s = leading_space s ++ lstrip is_bytes s.
  Proof. induction s as [|c s IH]; auto. cbn. destruct (white is_bytes c); cbn; congruence. Qed.
  Lemma lstrip_blank s : is_nil (lstrip is_bytes s) = forallb (white is_bytes) s.
  Proof. induction s as [|c s IH]; auto. cbn. destruct (white is_bytes c); cbn; auto. Qed.
  (** a pair that nothing has been clipped from *)
  Definition fresh (p : pair) : Prop := i_leading (fst p) = [] /\ i_column (fst p) = start_column /\ ends_with (i_end (fst p)) (i_line (fst p)) = true.
  Lemma fresh_wf p : fresh p -> wf start_column tab_width p.
  Proof. intros (A & B & C). split; auto. intros _ _. rewrite A, B. split; [lia|congruence]. Qed.
  Definition indent_of (p : pair) : Z := i_indent (fst p).
  Lemma indent_set n l : map indent_of (map (set_indent n) l) = repeat n (length l).
  Proof. induction l; cbn; auto. now rewrite IHl. Qed.
  Lemma loop_rule l : Forall fresh l -> forall levels blanks, descending levels -> forall y e,
    indent_loop is_bytes start_column tab_width (map (Z.add start_column) levels) (Z.of_nat (length levels)) blanks l None = (y, e) ->
    let '(r, ok) := indents one_level_rule levels (length blanks) (map (fun p => indentation (snd p)) l) in
    map indent_of y = r /\ e = (if ok then None else Some IndentationError).
  Proof.
    induction 1 as [|[i line] l Fp Fl IH]; intros levels blanks D y e E; cbn [indent_loop] in E.
    - injection E as <- <-. cbn. split; auto. apply indent_set.
    - cbn [map indents snd]. rewrite lstrip_blank in E. unfold indentation at 1. destruct (forallb (white is_bytes) line) eqn:B.
      + destruct (clip_trailing_step start_column tab_width False i [] line (fresh_wf _ Fp)) as (q & Ec & _). cbn [app] in Ec. rewrite Ec in E.
        specialize (IH _ _ D _ _ E). rewrite app_length, Nat.add_1_r in IH. exact IH.
      + pose proof (lstrip_leading line) as L. remember (lstrip is_bytes line) as r eqn:R. remember (leading_space line) as ws eqn:Ws.
        assert (r <> []) as N by (intros ->; rewrite <- lstrip_blank, <- R in B; discriminate).
        destruct Fp as (F1 & F2 & F3). cbn [fst] in *. clear R Ws B. subst line. rewrite app_length in E. replace (Z.of_nat (length ws + length r) - Z.of_nat (length r))%Z with (Z.of_nat (length ws)) in E by lia.
        unfold clip_leading in E. cbn [clip_count] in E. rewrite slice_from_app, slice_to_app in E. rewrite (proj2 (is_nil_false _ _) N) in E. cbn [i_column i_leading] in E.
        rewrite F1, F2 in E. cbn [app] in E.
        destruct (step_rule levels (width ws) ws D ltac:(lia)) as [S D'].
        { split; [intros ->; reflexivity|]. intros W. destruct ws; auto. pose proof (expandtabs_width tab_width (c :: ws) T ltac:(discriminate)). lia. }
        rewrite S in E. destruct (one_level_rule levels (width ws)) as [ls|].
        * destruct (indent_loop _ _ _ _ _ [] l None) as [y0 e0] eqn:Q. injection E as <- <-. specialize (IH ls [] D' y0 e0 Q). cbn [length] in IH.
          destruct (indents one_level_rule ls 0 _) as [r0 ok]. destruct IH as [IH1 IH2]. split; auto. rewrite map_app, indent_set, IH1, app_length. f_equal. f_equal. cbn. lia.
        * injection E as <- <-. auto.
  Qed.
  (** what each line becomes *)
  Lemma loop_text l up : Forall fresh l -> forall levels indent blanks origin y e, Forall2 (fun p q : pair => identity q = identity p /\ snd q = lstrip is_bytes (snd p) /\ (snd q <> [] -> i_leading (fst q) = leading_space (snd p) /\ i_column (fst q) = (start_column + width (leading_space (snd p)))%Z)) origin blanks ->
    indent_loop is_bytes start_column tab_width levels indent blanks l up = (y, e) ->
    exists k, Forall2 (fun p q : pair => identity q = identity p /\ snd q = lstrip is_bytes (snd p) /\ (snd q <> [] -> i_leading (fst q) = leading_space (snd p) /\ i_column (fst q) = (start_column + width (leading_space (snd p)))%Z)) (firstn k (origin ++ l)) y /\
    (e = None -> firstn k (origin ++ l) = origin ++ l).
  Proof.
    set (R := fun p q : pair => _).
    assert (Set_ : forall n a b, Forall2 R a b -> Forall2 R a (map (set_indent n) b)).
    { induction 1 as [|p q a b H F IH]; cbn [map]; constructor; auto. }
    induction 1 as [|[i line] l Fp Fl IH]; intros levels indent blanks origin y e B E; cbn [indent_loop] in E.
    - destruct up; injection E as <- <-; [exists 0; split; [constructor|discriminate]|].
      exists (length origin). rewrite app_nil_r, firstn_all. auto.
    - rewrite lstrip_blank in E. destruct (forallb (white is_bytes) line) eqn:Bl.
      + destruct (clip_trailing_step start_column tab_width False i [] line (fresh_wf _ Fp)) as (q & Ec & S & _). cbn [app] in Ec, S. rewrite Ec in E.
        assert (Bs : Forall2 R (origin ++ [(i, line)]) (blanks ++ [q])).
        { apply Forall2_app; auto. constructor; [|constructor]. split; [exact (step_identity _ _ _ _ S)|]. cbn [snd]. assert (lstrip is_bytes line = []) as -> by (apply is_nil_iff; now rewrite lstrip_blank).
          assert (snd q = []) as ->; [|split; auto; congruence]. unfold clip_trailing in Ec. destruct line as [|c0 line0]; [cbn in Ec; destruct Fp as (_ & _ & F3); unfold clip_all in Ec; cbn [fst] in F3; rewrite F3 in Ec; injection Ec as <-; reflexivity|].
          cbn [clip_count] in Ec. pose proof (slice_to_neg (@nil chr) (c0 :: line0) ltac:(discriminate)) as SN. cbn [app] in SN. rewrite SN in Ec. destruct (_ =? 0)%Z in Ec; cbn [is_nil] in Ec; destruct (clip_all_end _ _ Ec) as (_ & _ & _ & ? & _); auto. }
        destruct (IH _ _ _ _ _ _ Bs E) as (k & H1 & H2). exists k. rewrite <- app_assoc in H1, H2. auto.
      + pose proof (lstrip_leading line) as L. remember (lstrip is_bytes line) as r eqn:Hr. remember (leading_space line) as ws eqn:Ws.
        assert (r <> []) as N by (intros ->; rewrite <- lstrip_blank, <- Hr in Bl; discriminate).
        destruct Fp as (F1 & F2 & F3). cbn [fst] in *.
        rewrite L in E at 1 2. rewrite app_length in E. replace (Z.of_nat (length ws + length r) - Z.of_nat (length r))%Z with (Z.of_nat (length ws)) in E by lia.
        unfold clip_leading in E. cbn [clip_count] in E. rewrite slice_from_app, slice_to_app in E. rewrite (proj2 (is_nil_false _ _) N) in E.
        destruct (indent_step _ _ _ _ _) as [[ls ind]|x].
        * destruct (indent_loop _ _ _ _ _ [] l up) as [y0 e0] eqn:Q. injection E as <- <-.
          destruct (IH _ _ [] [] _ _ ltac:(constructor) Q) as (k & H1 & H2). cbn [app] in *. exists (length origin + S k).
          rewrite (firstn_mid origin (i, line) l k). split.
          -- apply Forall2_app; auto. apply Set_. apply Forall2_app; auto. constructor; [|constructor]. unfold R. cbn [fst snd i_leading i_column]. split; [reflexivity|]. split; [exact Hr|]. intros _. rewrite F1, F2. cbn [app]. now subst ws.
          -- intros X. rewrite H2 by auto. now rewrite <- app_assoc.
        * injection E as <- <-. exists 0. split; [constructor|discriminate].
  Qed.
End Indent.
