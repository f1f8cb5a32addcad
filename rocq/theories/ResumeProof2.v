(** split_quoted_strings: the results of two calls and of one. *)
From Verif Require Import PyStr DelimModel DelimSpec ResumeSpec ResumeProof DelimProps.
From Coq Require Import Lia.

Definition tup (x : segment) : tuple3 := (lead x, body x, DelimSpec.trail x).
Lemma deliver_app bad a b : deliver bad (a ++ b) =
  match deliver bad a with (ys, None) => let '(zs, e) := deliver bad b in (ys ++ zs, e) | (ys, Some x) => (ys, Some x) end.
Proof.
  induction a as [|x a IH]; cbn [app deliver].
  - destruct (deliver bad b); reflexivity.
  - destruct (bad x); auto. rewrite IH. destruct (deliver bad a) as [ys [e|]]; auto. destruct (deliver bad b); reflexivity.
Qed.
Lemma deliver_none bad a ys : deliver bad a = (ys, None) -> ys = map tup a /\ forall x, In x a -> bad x = false.
Proof.
  revert ys. induction a as [|x a IH]; intros ys E; cbn [deliver] in E; [injection E as <-; split; [auto|intros ? []]|].
  destruct (bad x) eqn:B; [discriminate|]. destruct (deliver bad a) as [y e]. injection E as <- ->. destruct (IH y eq_refl) as [-> H].
  split; [reflexivity|]. intros z [<-|I]; auto.
Qed.
Lemma newline_inside_app b ml f x y tr q : newline_inside b ml (mkSegment f (x ++ y) tr q) =
  newline_inside b ml (mkSegment f x [] q) || newline_inside b ml (mkSegment [] y tr q).
Proof. unfold newline_inside. cbn. rewrite existsb_app. destruct (negb (is_nil q) && negb (str_in q ml)); reflexivity. Qed.
Lemma unquoted_ok b ml t x : In x (unquoted_segment t) -> newline_inside b ml x = false.
Proof. destruct t; intros []; [subst x; reflexivity|contradiction]. Qed.
Lemma deliver_unquoted b ml t l : deliver (newline_inside b ml) (unquoted_segment t ++ l) = let '(zs, e) := deliver (newline_inside b ml) l in (map tup (unquoted_segment t) ++ zs, e).
Proof. destruct t; cbn; destruct (deliver _ l); reflexivity. Qed.

Section Resume.
  Context (is_bytes : bool) (quotes multi : list chr) (escape : option chr).
  Notation scan := (scan quotes multi escape).
  Notation run := (run quotes multi escape).
  Notation bad := (newline_inside is_bytes (map (fun c => [c]) multi)).
  Lemma scan_none_head s : forall text x r, scan None text s = x :: r -> (inside x = [] -> lead x = [] /\ DelimSpec.trail x = []) /\ (inside x <> [] -> lead x <> []).
  Proof.
    assert (Q : forall c text u x r, unquoted_segment text ++ scan (Some (c, [c])) [] u = x :: r -> (inside x = [] -> lead x = [] /\ DelimSpec.trail x = []) /\ (inside x <> [] -> lead x <> [])).
    { intros c text u x r E. destruct text as [|z text].
      - destruct (scan_inside_head quotes multi escape c [c] u []) as (b & tr & r' & E'). assert (E2 : mkSegment [c] b tr [c] :: r' = x :: r) by (rewrite <- E, <- E'; reflexivity). clear E. rename E2 into E. injection E as <- _. cbn. split; [discriminate|discriminate].
      - injection E as <- _. cbn. split; [auto|congruence]. }
    assert (U : forall text x r, unquoted_segment text = x :: r -> (inside x = [] -> lead x = [] /\ DelimSpec.trail x = []) /\ (inside x <> [] -> lead x <> [])).
    { intros text x r E. destruct text; [discriminate|]. injection E as <- _. cbn. split; [auto|congruence]. }
    induction s as [|c|c d t IH IH'] using (two_step); intros text x r E.
    - exact (U _ _ _ E).
    - assert (E' : (if chr_in c (quotes ++ multi) then unquoted_segment text ++ scan (Some (c, [c])) [] [] else scan None (text ++ [c]) []) = x :: r)
        by (cbn in E |- *; destruct escape; exact E).
      destruct (chr_in c _); [exact (Q _ _ _ _ _ E')|exact (U _ _ _ E')].
    - rewrite scan_cons2 in E. cbv zeta in E.
      assert (E' : (if chr_in c (quotes ++ multi) then unquoted_segment text ++ scan (Some (c, [c])) [] (d :: t) else scan None (text ++ [c]) (d :: t)) = x :: r ->
         (inside x = [] -> lead x = [] /\ DelimSpec.trail x = []) /\ (inside x <> [] -> lead x <> [])).
      { clear E. intros E. destruct (chr_in c _); [exact (Q _ _ _ _ _ E)|exact (IH' _ _ _ E)]. }
      destruct escape as [e|]; [|auto]. destruct ((c =? e)%N && _); [exact (IH _ _ _ E)|auto].
  Qed.
  (** mode of a state, and state of a mode *)
  Definition mode_of (state : str) : mode_t := match state with q :: _ => Some (q, []) | [] => None end.
  Definition mark (m : mode_t) : str := match m with Some (q, _) => [q] | None => [] end.
  Definition parsed (state s : str) : list tuple3 * option exn := deliver bad (scan (mode_of state) [] s).
  Definition valid_state (state : str) : Prop := state = [] \/ exists q, In q (quotes ++ multi) /\ state = [q].
  Lemma open_after_run state s a m x : valid_state state -> run (mode_of state) [] s = (a, m, x) -> open_after state (map tup (a ++ finish m x)) = mark m.
  Proof.
    intros V R. pose proof (run_after quotes multi escape s (mode_of state) []) as A. rewrite R in A. cbn in A. unfold open_after. rewrite map_app, rev_app_distr.
    destruct m as [[q f]|]; cbn [finish mark].
    - cbn. rewrite <- map_rev. destruct A as [[-> A]|[-> A]].
      + destruct (rev a) as [|y a'] eqn:Ra; cbn; auto. destruct state; auto. exfalso. destruct A as [A|A]; [|discriminate].
        apply (f_equal (@rev segment)) in Ra. rewrite rev_involutive in Ra. cbn in Ra. contradiction.
      + cbn. destruct V as [-> |(q' & _ & ->)]; [discriminate|]. cbn in A. injection A as <- <-. reflexivity.
    - destruct x as [|c x]; cbn.
      + destruct A as [[-> A]|(a' & y & -> & T)].
        * destruct V as [-> |(q' & _ & ->)]; [reflexivity|discriminate].
        * rewrite map_app, rev_app_distr. cbn. destruct (DelimSpec.trail y); [congruence|reflexivity].
      + destruct A as [[-> A]|(a' & y & -> & T)].
        * destruct V as [-> |(q' & _ & ->)]; [reflexivity|discriminate].
        * rewrite map_app, rev_app_distr. cbn. reflexivity.
  Qed.
  Definition put_together (state : str) (out1 out2 : list tuple3) : list tuple3 :=
    match out2, open_after state out1 with [], _ :: _ => removelast out1 | _, _ => glue out1 out2 end.
  Lemma cut_pend a b : cut_ok quotes escape a b ->
    (pend quotes escape a = true -> match b, escape with d :: _, Some e => chr_in d quotes || (d =? e)%N = false | _, _ => True end).
  Proof.
    intros C P. destruct b as [|d b]; auto. destruct escape as [e|] eqn:E; auto. cbn in C. rewrite (pend_odd quotes (Some e) e a eq_refl) in P.
    apply Nat.odd_spec in P. destruct (C P) as [N1 N2]. apply orb_false_iff. split; [|now apply N.eqb_neq].
    apply not_true_iff_false. intros H. apply N1. unfold chr_in in H. apply existsb_exists in H. destruct H as (y & I & Y). apply N.eqb_eq in Y. now subst.
  Qed.
  Lemma mark_valid state s a m x : valid_state state -> run (mode_of state) [] s = (a, m, x) -> valid_state (mark m).
  Proof.
    intros V R.
    assert (G : forall s mode text, (forall q f, mode = Some (q, f) -> In q (quotes ++ multi)) -> forall q f, snd (fst (run mode text s)) = Some (q, f) -> In q (quotes ++ multi)).
    { clear. assert (CI : forall c, chr_in c (quotes ++ multi) = true -> In c (quotes ++ multi)).
      { intros c H. unfold chr_in in H. apply existsb_exists in H. destruct H as (y & I & Y). apply N.eqb_eq in Y. now subst. }
      induction s as [|c|c d t IH IH'] using (two_step); intros mode text M q f E.
      - cbn in E. eauto.
      - assert (E' : snd (fst (match mode with
          | None => if chr_in c (quotes ++ multi) then (unquoted_segment text ++ [], Some (c, [c]), []) else ([], None, text ++ [c])
          | Some (q, first) => if (c =? q)%N then ([mkSegment first text [q] [q]], None, []) else ([], mode, text ++ [c]) end)) = Some (q, f)).
        { cbn in E. destruct escape; destruct mode as [[q0 f0]|]; try destruct (c =? q0)%N; try destruct (chr_in c _); exact E. }
        destruct mode as [[q0 f0]|]; [destruct (c =? q0)%N|destruct (chr_in c _) eqn:CC]; cbn in E'; try discriminate; eauto. injection E' as <- _. auto.
      - rewrite run_cons2 in E. cbv zeta in E.
        assert (E' : snd (fst (match mode with
          | None => if chr_in c (quotes ++ multi) then let '(a, m, x) := run (Some (c, [c])) [] (d :: t) in (unquoted_segment text ++ a, m, x) else run mode (text ++ [c]) (d :: t)
          | Some (q, first) => if (c =? q)%N then let '(a, m, x) := run None [] (d :: t) in (mkSegment first text [q] [q] :: a, m, x) else run mode (text ++ [c]) (d :: t) end)) = Some (q, f) -> In q (quotes ++ multi)).
        { clear E. intros E. destruct mode as [[q0 f0]|]; [destruct (c =? q0)%N|destruct (chr_in c _) eqn:CC]; try (eapply IH'; eauto; fail).
          - eapply (IH' None []) with (f := f); [discriminate|]. destruct (run None [] (d :: t)) as [[? ?] ?]. exact E.
          - eapply (IH' (Some (c, [c])) []) with (f := f); [intros ? ? [= <- <-]; auto|]. destruct (run (Some (c, [c])) [] (d :: t)) as [[? ?] ?]. exact E. }
        destruct escape as [e|]; [|auto]. destruct ((c =? e)%N && _); [|auto]. eapply IH; eauto. }
    destruct m as [[q f]|]; [|now left]. right. exists q. split; [|reflexivity]. apply (G s (mode_of state) [] ) with (f := f); [|now rewrite R].
    intros q' f' E. destruct V as [-> |(q0 & I & ->)]; [discriminate|]. cbn in E. injection E as <- _. auto.
  Qed.
  Lemma resume_ok state s1 s2 out1 : valid_state state -> cut_ok quotes escape s1 s2 -> parsed state s1 = (out1, None) ->
    valid_state (open_after state out1) /\
    exists out2 e, parsed (open_after state out1) s2 = (out2, e) /\ parsed state (s1 ++ s2) = (put_together state out1 out2, e).
  Proof.
    intros V C P. unfold parsed in *. rewrite run_scan in P. destruct (run (mode_of state) [] s1) as [[a m] x] eqn:R.
    destruct (deliver_none _ _ _ P) as [-> Good]. pose proof (open_after_run state s1 a m x V R) as OA. 
    rewrite OA. unfold put_together. rewrite OA. split; [exact (mark_valid _ _ _ _ _ V R)|].
    assert (W : scan (mode_of state) [] (s1 ++ s2) = a ++ scan m x s2).
    { rewrite run_scan, (run_app quotes multi escape s2 s1 (mode_of state) [] (cut_pend s1 s2 C)), R. rewrite (run_scan quotes multi escape s2 m x). destruct (run m x s2) as [[b m'] x']. now rewrite app_assoc. }
    rewrite W. clear W. rewrite deliver_app in P |- *.
    destruct (deliver bad a) as [ya [ea|]] eqn:Da; [discriminate|]. destruct (deliver_none _ _ _ Da) as [-> _].
    destruct m as [[q f]|].
    - set (L := scan (mode_of (mark (Some (q, f)))) [] s2). pose proof (scan_inside quotes multi escape q f s2 x []) as SI. rewrite app_nil_r in SI.
      destruct (scan_inside_head quotes multi escape q [] s2 []) as (b & tr & r & H). change (L = mkSegment [] b tr [q] :: r) in H.
      change (scan (Some (q, f)) x s2 = join_first f x L) in SI. rewrite SI, H. clearbody L. clear SI. cbn [mark]. cbn [join_first deliver body DelimSpec.trail inside].
      rewrite newline_inside_app, (Good (mkSegment f x [] [q])) by (apply in_app_iff; right; cbn; auto). cbn [orb].
      destruct (bad (mkSegment [] b tr [q])).
      + do 2 eexists. split; [reflexivity|]. rewrite map_app, removelast_app by discriminate. cbn. reflexivity.
      + destruct (deliver bad r) as [zs e]. do 2 eexists. split; [reflexivity|]. unfold glue. rewrite map_app, rev_app_distr. cbn. now rewrite rev_involutive.
    - cbn [mark mode_of]. pose proof (scan_outside quotes multi escape s2 x []) as SI. rewrite app_nil_r in SI. rewrite SI. clear SI.
      destruct (deliver bad (scan None [] s2)) as [zs e] eqn:Dz. exists zs, e. split; [reflexivity|].
      assert (forall z : list tuple3, match z with [] => glue (map tup (a ++ unquoted_segment x)) z | _ :: _ => glue (map tup (a ++ unquoted_segment x)) z end = glue (map tup (a ++ unquoted_segment x)) z) as Z by (intros []; reflexivity).
      cbn [finish]. transitivity (glue (map tup (a ++ unquoted_segment x)) zs, e); [|destruct zs; reflexivity]. clear Z.
      destruct (scan None [] s2) as [|y r] eqn:Sc.
      + cbn in Dz. injection Dz as <- <-. cbn [join_outside]. rewrite <- (app_nil_r (unquoted_segment x)) at 1. rewrite deliver_unquoted. cbn. rewrite app_nil_r. unfold glue. 
        rewrite <- map_app. destruct (rev (map tup (a ++ unquoted_segment x))) as [|[[? ?] [|]] ?]; now rewrite app_nil_r.
      + destruct (scan_none_head s2 [] y r Sc) as [H1 H2]. cbn [join_outside]. destruct y as [yl yb yt yi]. cbn in H1, H2 |- *. destruct yi as [|i yi].
        * destruct (H1 eq_refl) as [-> ->]. cbn in Dz |- *. destruct (deliver bad r) as [zr er]. injection Dz as <- <-. f_equal. unfold glue. rewrite map_app, rev_app_distr.
          destruct x as [|c x]; cbn.
          -- pose proof (run_after quotes multi escape s1 (mode_of state) []) as A. rewrite R in A. cbn in A. destruct A as [[-> A]|(a' & y & -> & T)]; [reflexivity|].
             rewrite map_app, rev_app_distr. cbn. destruct (DelimSpec.trail y); [congruence|]. now rewrite app_nil_r.
          -- now rewrite rev_involutive.
        * assert (L : yl <> []) by (apply H2; discriminate). rewrite deliver_unquoted. cbn [deliver lead body DelimSpec.trail] in Dz |- *.
          assert (Gl : forall zs, match zs with (l, _, _) :: _ => l <> [] | [] => True end -> glue (map tup (a ++ unquoted_segment x)) zs = map tup (a ++ unquoted_segment x) ++ zs).
          { intros [|[[l b] t] z] Hz; unfold glue; destruct (rev (map tup (a ++ unquoted_segment x))) as [|[[? ?] [|]] ?]; auto. destruct l; [congruence|reflexivity]. }
          destruct (bad (mkSegment yl yb yt (i :: yi))).
          -- injection Dz as <- <-. rewrite Gl by exact I. now rewrite map_app, <- app_assoc.
          -- destruct (deliver bad r) as [zr er]. injection Dz as <- <-. rewrite Gl by exact L. now rewrite map_app, <- app_assoc.
  Qed.
  Lemma resume_error state s1 s2 out1 x : cut_ok quotes escape s1 s2 -> parsed state s1 = (out1, Some x) -> parsed state (s1 ++ s2) = (out1, Some x).
  Proof.
    intros C P. unfold parsed in *. rewrite run_scan in P. destruct (run (mode_of state) [] s1) as [[a m] y] eqn:R.
    assert (W : scan (mode_of state) [] (s1 ++ s2) = a ++ scan m y s2).
    { rewrite run_scan, (run_app quotes multi escape s2 s1 (mode_of state) [] (cut_pend s1 s2 C)), R. rewrite (run_scan quotes multi escape s2 m y). destruct (run m y s2) as [[b m'] x']. now rewrite app_assoc. }
    rewrite W. rewrite deliver_app in P |- *. destruct (deliver bad a) as [ya [ea|]]; [exact P|]. destruct m as [[q f]|]; cbn [finish] in P.
    - pose proof (scan_inside quotes multi escape q f s2 y []) as SI. rewrite app_nil_r in SI.
      destruct (scan_inside_head quotes multi escape q [] s2 []) as (b & tr & r & H). assert (SI2 : scan (Some (q, f)) y s2 = join_first f y (mkSegment [] b tr [q] :: r)) by (rewrite <- H; exact SI). rewrite SI2. cbn [join_first deliver body DelimSpec.trail inside] in P |- *.
      rewrite newline_inside_app. destruct (bad (mkSegment f y [] [q])); [|discriminate]. exact P.
    - rewrite <- (app_nil_r (unquoted_segment y)), deliver_unquoted in P. discriminate.
  Qed.
  Lemma glue_run state s1 s2 out1 out2 : valid_state state -> cut_ok quotes escape s1 s2 -> parsed state s1 = (out1, None) -> parsed (open_after state out1) s2 = (out2, None) ->
    parsed state (s1 ++ s2) = (glue out1 out2, None) /\ open_after state (glue out1 out2) = open_after (open_after state out1) out2.
  Proof.
    intros V C P1 P2. destruct (resume_ok state s1 s2 out1 V C P1) as (V2 & o & e & E1 & E2). rewrite P2 in E1. injection E1 as <- <-.
    assert (PT : put_together state out1 out2 = glue out1 out2).
    { unfold put_together. destruct out2 as [|t out2]; auto. destruct (open_after state out1) as [|c o] eqn:O; auto. exfalso.
      unfold parsed in P2. cbn [mode_of] in P2. destruct (scan_inside_head quotes multi escape c [] s2 []) as (b & tr & r & H). assert (P3 : deliver bad (mkSegment [] b tr [c] :: r) = ([], None)) by (rewrite <- H; exact P2). clear P2. rename P3 into P2. cbn [deliver] in P2.
      destruct (bad _); [discriminate|]. destruct (deliver bad r). discriminate. }
    rewrite PT in E2. split; auto.
    (* both are the mark of the mode reached *)
    assert (Mark : forall st s out, valid_state st -> parsed st s = (out, None) -> forall a m x, run (mode_of st) [] s = (a, m, x) -> open_after st out = mark m).
    { intros st s out Vs Ps a m x R. unfold parsed in Ps. rewrite run_scan, R in Ps. destruct (deliver_none _ _ _ Ps) as [-> _]. eapply open_after_run; eauto. }
    destruct (run (mode_of state) [] s1) as [[a m] x] eqn:R1. pose proof (Mark _ _ _ V P1 _ _ _ R1) as M1. rewrite M1 in P2, V2 |- *.
    pose proof (run_app quotes multi escape s2 s1 (mode_of state) [] (cut_pend s1 s2 C)) as RA. rewrite R1 in RA. destruct (run m x s2) as [[b m'] x'] eqn:R2. rewrite (Mark _ _ _ V E2 _ _ _ RA).
    destruct (run (mode_of (mark m)) [] s2) as [[b2 m2] x2] eqn:R3. rewrite (Mark _ _ _ V2 P2 _ _ _ R3).
    assert (MM : forall s m1 t1 m2 t2, mark m1 = mark m2 -> mark (snd (fst (run m1 t1 s))) = mark (snd (fst (run m2 t2 s)))).
    { clear. induction s as [|c|c d t IH IH'] using (two_step); intros m1 t1 m2 t2 E; auto.
      - cbn. destruct escape; destruct m1 as [[q1 f1]|], m2 as [[q2 f2]|]; try discriminate; cbn in E; try injection E as <-; try destruct (c =? q1)%N; try destruct (chr_in c _); reflexivity.
      - rewrite !run_cons2. cbv zeta.
        assert (E' : forall (one1 one2 : list segment * mode_t * str), one1 = match m1 with
          | None => if chr_in c (quotes ++ multi) then let '(a, m, x) := run (Some (c, [c])) [] (d :: t) in (unquoted_segment t1 ++ a, m, x) else run m1 (t1 ++ [c]) (d :: t)
          | Some (q, first) => if (c =? q)%N then let '(a, m, x) := run None [] (d :: t) in (mkSegment first t1 [q] [q] :: a, m, x) else run m1 (t1 ++ [c]) (d :: t) end ->
          one2 = match m2 with
          | None => if chr_in c (quotes ++ multi) then let '(a, m, x) := run (Some (c, [c])) [] (d :: t) in (unquoted_segment t2 ++ a, m, x) else run m2 (t2 ++ [c]) (d :: t)
          | Some (q, first) => if (c =? q)%N then let '(a, m, x) := run None [] (d :: t) in (mkSegment first t2 [q] [q] :: a, m, x) else run m2 (t2 ++ [c]) (d :: t) end ->
          mark (snd (fst one1)) = mark (snd (fst one2))).
        { intros one1 one2 -> ->. destruct m1 as [[q1 f1]|], m2 as [[q2 f2]|]; try discriminate; cbn in E; try injection E as <-.
          - destruct (c =? q1)%N; [destruct (run None [] (d :: t)) as [[? ?] ?]; reflexivity|apply IH'; reflexivity].
          - destruct (chr_in c _); [destruct (run (Some (c, [c])) [] (d :: t)) as [[? ?] ?]; reflexivity|apply IH'; reflexivity]. }
        destruct escape as [e|]; [|eapply E'; reflexivity]. destruct ((c =? e)%N && _); [apply IH; auto|eapply E'; reflexivity]. }
    pose proof (MM s2 m x (mode_of (mark m)) [] ltac:(destruct m as [[? ?]|]; reflexivity)) as H. rewrite R2, R3 in H. exact H.
  Qed.
End Resume.
