(** split_quoted_strings: running the scanner in two steps. *)
From Verif Require Import PyStr DelimSpec ResumeSpec.
From Coq Require Import Lia.

Section Run.
  Context (quotes multi : list chr) (escape : option chr).
  Notation scan := (scan quotes multi escape).
  Definition mode_t := option (chr * str).
  (** the segments that are complete, and where the scanner is after s *)
  Fixpoint run (mode : mode_t) (text s : str) : list segment * mode_t * str :=
    match s with
    | [] => ([], mode, text)
    | c :: t =>
        let one :=
          match mode with
          | None => if chr_in c (quotes ++ multi) then let '(a, m, x) := run (Some (c, [c])) [] t in (unquoted_segment text ++ a, m, x)
                    else run mode (text ++ [c]) t
          | Some (q, first) => if (c =? q)%N then let '(a, m, x) := run None [] t in (mkSegment first text [q] [q] :: a, m, x) else run mode (text ++ [c]) t
          end in
        match t, escape with
        | d :: t', Some e => if (c =? e)%N && (chr_in d quotes || (d =? e)%N) then run mode (text ++ [c; d]) t' else one
        | _, _ => one
        end
    end.
  Definition finish (mode : mode_t) (text : str) : list segment :=
    match mode with None => unquoted_segment text | Some (q, first) => [mkSegment first text [] [q]] end.
  Fixpoint pend (s : str) : bool :=
    match s, escape with
    | c :: t, Some e =>
        match t with
        | [] => (c =? e)%N
        | d :: t' => if (c =? e)%N && (chr_in d quotes || (d =? e)%N) then pend t' else pend t
        end
    | _, _ => false
    end.
  Lemma two_step (P : str -> Prop) : P [] -> (forall c, P [c]) -> (forall c d t, P t -> P (d :: t) -> P (c :: d :: t)) -> forall s, P s.
  Proof.
    intros H0 H1 H2 s. assert (P s /\ forall c, P (c :: s)) as [A _]; [|exact A].
    induction s as [|d s [IH1 IH2]]; [auto|]. split; [apply IH2|]. intros c. apply H2; auto.
  Qed.
  Lemma scan_cons2 mode text c d t : scan mode text (c :: d :: t) =
    let one := match mode with
          | None => if chr_in c (quotes ++ multi) then unquoted_segment text ++ scan (Some (c, [c])) [] (d :: t) else scan mode (text ++ [c]) (d :: t)
          | Some (q, first) => if (c =? q)%N then mkSegment first text [q] [q] :: scan None [] (d :: t) else scan mode (text ++ [c]) (d :: t) end in
    match escape with Some e => if (c =? e)%N && (chr_in d quotes || (d =? e)%N) then scan mode (text ++ [c; d]) t else one | None => one end.
  Proof. destruct escape; reflexivity. Qed.
  Lemma run_cons2 mode text c d t : run mode text (c :: d :: t) =
    let one := match mode with
          | None => if chr_in c (quotes ++ multi) then let '(a, m, x) := run (Some (c, [c])) [] (d :: t) in (unquoted_segment text ++ a, m, x) else run mode (text ++ [c]) (d :: t)
          | Some (q, first) => if (c =? q)%N then let '(a, m, x) := run None [] (d :: t) in (mkSegment first text [q] [q] :: a, m, x) else run mode (text ++ [c]) (d :: t) end in
    match escape with Some e => if (c =? e)%N && (chr_in d quotes || (d =? e)%N) then run mode (text ++ [c; d]) t else one | None => one end.
  Proof. reflexivity. Qed.
  Lemma run_scan s : forall mode text, scan mode text s = let '(a, m, x) := run mode text s in a ++ finish m x.
  Proof.
    induction s as [|c|c d t IH IH'] using two_step; intros mode text.
    - reflexivity.
    - destruct escape; cbn; (destruct mode as [[q f]|]; [destruct (c =? q)%N|destruct (chr_in c _)]; cbn; rewrite ?app_nil_r; reflexivity).
    - rewrite scan_cons2, run_cons2. remember (d :: t) as u eqn:U. cbv zeta.
      assert (E : match mode with
          | None => if chr_in c (quotes ++ multi) then unquoted_segment text ++ scan (Some (c, [c])) [] u else scan mode (text ++ [c]) u
          | Some (q, first) => if (c =? q)%N then mkSegment first text [q] [q] :: scan None [] u else scan mode (text ++ [c]) u end =
          let '(a, m, x) := match mode with
          | None => if chr_in c (quotes ++ multi) then let '(a, m, x) := run (Some (c, [c])) [] u in (unquoted_segment text ++ a, m, x) else run mode (text ++ [c]) u
          | Some (q, first) => if (c =? q)%N then let '(a, m, x) := run None [] u in (mkSegment first text [q] [q] :: a, m, x) else run mode (text ++ [c]) u end in a ++ finish m x).
      { destruct mode as [[q f]|]; [destruct (c =? q)%N|destruct (chr_in c _)]; rewrite IH'; destruct (run _ _ u) as [[a m] x]; auto. now rewrite app_assoc. }
      destruct escape as [e|]; [|exact E]. destruct ((c =? e)%N && _); [apply IH|exact E].
  Qed.
  Lemma pend_cons c d t : pend (c :: d :: t) = match escape with Some e => if (c =? e)%N && (chr_in d quotes || (d =? e)%N) then pend t else pend (d :: t) | None => false end.
  Proof. reflexivity. Qed.
  Lemma pend_none s : escape = None -> pend s = false.
  Proof. intros E. destruct s; cbn; auto. now rewrite E. Qed.
  Lemma run_app s2 s : forall mode text, (pend s = true -> match s2, escape with d :: _, Some e => chr_in d quotes || (d =? e)%N = false | _, _ => True end) ->
    run mode text (s ++ s2) = let '(a, m, x) := run mode text s in let '(b, m', x') := run m x s2 in (a ++ b, m', x').
  Proof.
    induction s as [|c|c d t IH IH'] using two_step; intros mode text H.
    - cbn. destruct (run mode text s2) as [[b m'] x']. reflexivity.
    - assert (E : run mode text ([c] ++ s2) = match mode with
          | None => if chr_in c (quotes ++ multi) then let '(a, m, x) := run (Some (c, [c])) [] s2 in (unquoted_segment text ++ a, m, x) else run mode (text ++ [c]) s2
          | Some (q, first) => if (c =? q)%N then let '(a, m, x) := run None [] s2 in (mkSegment first text [q] [q] :: a, m, x) else run mode (text ++ [c]) s2 end).
      { cbn [app run]. cbn in H. destruct s2 as [|d t]; auto. destruct escape as [e|]; auto. destruct (c =? e)%N; cbn [andb]; auto. rewrite (H eq_refl). auto. }
      rewrite E. cbn. destruct escape; (destruct mode as [[q f]|]; [destruct (c =? q)%N|destruct (chr_in c _)]; cbn; rewrite ?app_nil_r; destruct (run _ _ s2) as [[b m] x]; reflexivity).
    - change ((c :: d :: t) ++ s2) with (c :: d :: t ++ s2). rewrite pend_cons in H. change (d :: t ++ s2) with ((d :: t) ++ s2).
      assert (E : forall esc, esc = escape -> (pend (d :: t) = true -> match s2, esc with d0 :: _, Some e => chr_in d0 quotes || (d0 =? e)%N = false | _, _ => True end) ->
          match mode with
          | None => if chr_in c (quotes ++ multi) then let '(a, m, x) := run (Some (c, [c])) [] ((d :: t) ++ s2) in (unquoted_segment text ++ a, m, x) else run mode (text ++ [c]) ((d :: t) ++ s2)
          | Some (q, first) => if (c =? q)%N then let '(a, m, x) := run None [] ((d :: t) ++ s2) in (mkSegment first text [q] [q] :: a, m, x) else run mode (text ++ [c]) ((d :: t) ++ s2) end =
          let '(a, m, x) := match mode with
          | None => if chr_in c (quotes ++ multi) then let '(a, m, x) := run (Some (c, [c])) [] (d :: t) in (unquoted_segment text ++ a, m, x) else run mode (text ++ [c]) (d :: t)
          | Some (q, first) => if (c =? q)%N then let '(a, m, x) := run None [] (d :: t) in (mkSegment first text [q] [q] :: a, m, x) else run mode (text ++ [c]) (d :: t) end in
          let '(b, m', x') := run m x s2 in (a ++ b, m', x')).
      { intros esc -> H'. destruct mode as [[q f]|]; [destruct (c =? q)%N|destruct (chr_in c _)]; rewrite IH' by exact H'; destruct (run _ _ (d :: t)) as [[a m] x]; destruct (run m x s2) as [[b m'] x']; cbn; rewrite ?app_assoc; reflexivity. }
      change ((d :: t) ++ s2) with (d :: t ++ s2). rewrite !run_cons2. cbv zeta. change (d :: t ++ s2) with ((d :: t) ++ s2).
      destruct escape as [e|] eqn:Esc; [|apply (E None); auto; rewrite pend_none by auto; discriminate].
      destruct ((c =? e)%N && _); [apply IH; exact H|apply (E (Some e)); auto].
  Qed.
  (** pending is: an odd number of escapes at the end *)
  Definition same (e c : chr) : bool := (c =? e)%N.
  Lemma leading_run_app e a b : leading_run e (a ++ b) = if forallb (same e) a then length a + leading_run e b else leading_run e a.
  Proof.
    induction a as [|c a IH]; auto. cbn. unfold same at 1. destruct (c =? e)%N eqn:E; cbn; auto. rewrite IH. destruct (forallb (same e) a); auto.
  Qed.
  Lemma trailing_cons e c t : trailing_run e (c :: t) = if forallb (same e) t then length t + (if (c =? e)%N then 1 else 0) else trailing_run e t.
  Proof.
    unfold trailing_run. cbn [rev]. rewrite leading_run_app.
    assert (forallb (same e) (rev t) = forallb (same e) t) as ->.
    { clear. induction t as [|x t IH]; cbn; auto. rewrite forallb_app, IH. cbn. rewrite andb_true_r. apply andb_comm. }
    rewrite rev_length. destruct (forallb (same e) t); auto.
  Qed.
  Lemma forallb_trailing e t : forallb (same e) t = true -> trailing_run e t = length t.
  Proof.
    induction t as [|x t IH]; auto. cbn [forallb]. intros H. apply andb_true_iff in H. destruct H as [H1 H2]. unfold same in H1. rewrite trailing_cons, H2, H1. cbn. lia.
  Qed.
  Lemma pend_odd e s : escape = Some e -> pend s = Nat.odd (trailing_run e s).
  Proof.
    intros E. induction s as [|c|c d t IH IH'] using two_step.
    - reflexivity.
    - cbn. rewrite E. unfold trailing_run. cbn. destruct (c =? e)%N; reflexivity.
    - rewrite pend_cons, E. rewrite trailing_cons. cbn [forallb]. unfold same at 1. destruct (c =? e)%N eqn:C; cbn [andb].
      + destruct (d =? e)%N eqn:D.
        * rewrite orb_true_r. rewrite IH, trailing_cons, D. cbn [andb].
          destruct (forallb (same e) t) eqn:F; auto. rewrite (forallb_trailing _ _ F). cbn [length]. replace (S (length t) + 1) with (S (S (length t))) by lia. reflexivity.
        * rewrite orb_false_r. cbn [andb]. rewrite IH'. rewrite trailing_cons, D. destruct (forallb (same e) t) eqn:F; [|destruct (chr_in d quotes); auto].
          rewrite IH, (forallb_trailing _ _ F). rewrite Nat.add_0_r. now destruct (chr_in d quotes).
      + rewrite IH', trailing_cons. destruct (d =? e)%N; cbn [andb]; auto. destruct (forallb (same e) t); auto. cbn [length]. f_equal. lia.
  Qed.
  (** where the scanner can be *)
  Definition after_ok (mode : mode_t) (s : list segment * mode_t * str) : Prop :=
    let '(a, m, x) := s in
    match m with
    | None => (a = [] /\ mode = None) \/ (exists a' y, a = a' ++ [y] /\ DelimSpec.trail y <> [])
    | Some (q, f) => (f = [q] /\ (a <> [] \/ mode = None)) \/ (a = [] /\ mode = Some (q, f))
    end.
  Lemma trail_unquoted t a' y : exists a'', unquoted_segment t ++ a' ++ [y] = a'' ++ [y].
  Proof. destruct t; cbn; [now exists a'|]. eexists (_ :: _). reflexivity. Qed.
  Lemma run_after s : forall mode text, after_ok mode (run mode text s).
  Proof.
    induction s as [|c|c d t IH IH'] using two_step; intros mode text.
    - cbn. destruct mode as [[q f]|]; auto.
    - assert (E : after_ok mode match mode with
          | None => if chr_in c (quotes ++ multi) then (unquoted_segment text ++ [], Some (c, [c]), []) else ([], None, text ++ [c])
          | Some (q, first) => if (c =? q)%N then ([mkSegment first text [q] [q]], None, []) else ([], mode, text ++ [c]) end).
      { destruct mode as [[q f]|]; [destruct (c =? q)%N|destruct (chr_in c _)]; cbn; auto. right. exists [], (mkSegment f text [q] [q]). split; [reflexivity|discriminate]. }
      cbn. destruct escape; destruct mode as [[q f]|]; try destruct (c =? q)%N; try destruct (chr_in c _); exact E.
    - rewrite run_cons2. remember (d :: t) as u eqn:U. cbv zeta.
      assert (E : after_ok mode match mode with
          | None => if chr_in c (quotes ++ multi) then let '(a, m, x) := run (Some (c, [c])) [] u in (unquoted_segment text ++ a, m, x) else run mode (text ++ [c]) u
          | Some (q, first) => if (c =? q)%N then let '(a, m, x) := run None [] u in (mkSegment first text [q] [q] :: a, m, x) else run mode (text ++ [c]) u end).
      { destruct mode as [[q f]|]; [destruct (c =? q)%N|destruct (chr_in c _)]; try apply IH'.
        - pose proof (IH' None []) as H. destruct (run None [] u) as [[a m] x]. cbn in H |- *. destruct m as [[q' f']|].
          + destruct H as [[H _]|[_ H]]; [|discriminate]. left. split; auto. left. discriminate.
          + right. destruct H as [[-> _]|(a' & y & -> & T)]; [exists [], (mkSegment f text [q] [q]); split; [reflexivity|discriminate]|exists (mkSegment f text [q] [q] :: a'), y; auto].
        - pose proof (IH' (Some (c, [c])) []) as H. destruct (run (Some (c, [c])) [] u) as [[a m] x]. cbn in H |- *. destruct m as [[q' f']|].
          + left. destruct H as [[H _]|[_ [= <- <-]]]; auto.
          + right. destruct H as [[_ H]|(a' & y & -> & T)]; [discriminate|]. destruct (trail_unquoted text a' y) as [a'' ->]. eauto. }
      destruct escape as [e|]; [|exact E]. destruct ((c =? e)%N && _); [apply IH|exact E].
  Qed.
  (** the text read so far only matters for the first segment *)
  Definition join_first (f text : str) (l : list segment) : list segment :=
    match l with [] => [] | x :: r => mkSegment f (text ++ body x) (DelimSpec.trail x) (inside x) :: r end.
  Lemma scan_inside q f s : forall text0 text, scan (Some (q, f)) (text0 ++ text) s = join_first f text0 (scan (Some (q, [])) text s).
  Proof.
    induction s as [|c|c d t IH IH'] using two_step; intros text0 text.
    - reflexivity.
    - cbn. destruct escape; destruct (c =? q)%N; cbn; rewrite ?app_assoc; reflexivity.
    - rewrite !scan_cons2. remember (d :: t) as u eqn:U. cbv zeta.
      assert (E : (if (c =? q)%N then mkSegment f (text0 ++ text) [q] [q] :: scan None [] u else scan (Some (q, f)) ((text0 ++ text) ++ [c]) u) =
                  join_first f text0 (if (c =? q)%N then mkSegment [] text [q] [q] :: scan None [] u else scan (Some (q, [])) (text ++ [c]) u)).
      { destruct (c =? q)%N; [reflexivity|]. rewrite <- app_assoc. apply IH'. }
      destruct escape as [e|]; [|exact E]. destruct ((c =? e)%N && _); [|exact E]. rewrite <- app_assoc. apply IH.
  Qed.
  Definition join_outside (text : str) (l : list segment) : list segment :=
    match l with
    | x :: r => match inside x with [] => mkSegment [] (text ++ body x) [] [] :: r | _ => unquoted_segment text ++ l end
    | [] => unquoted_segment text
    end.
  Lemma join_outside_inside text0 text l : (exists x r, l = x :: r /\ inside x <> []) ->
    unquoted_segment (text0 ++ text) ++ l = join_outside text0 (unquoted_segment text ++ l).
  Proof.
    intros (x & r & -> & N). destruct text; cbn.
    - rewrite app_nil_r. destruct (inside x); [congruence|reflexivity].
    - destruct text0; reflexivity.
  Qed.
  Lemma scan_inside_head q f s : forall text, exists b tr r, scan (Some (q, f)) text s = mkSegment f b tr [q] :: r.
  Proof.
    induction s as [|c|c d t IH IH'] using two_step; intros text.
    - cbn. eauto.
    - cbn. destruct escape; destruct (c =? q)%N; eauto.
    - rewrite !scan_cons2. remember (d :: t) as u eqn:U. cbv zeta.
      assert (E : exists b tr r, (if (c =? q)%N then mkSegment f text [q] [q] :: scan None [] u else scan (Some (q, f)) (text ++ [c]) u) = mkSegment f b tr [q] :: r)
        by (destruct (c =? q)%N; eauto).
      destruct escape as [e|]; [|exact E]. destruct ((c =? e)%N && _); [|exact E]. apply IH.
  Qed.
  Lemma scan_outside s : forall text0 text, scan None (text0 ++ text) s = join_outside text0 (scan None text s).
  Proof.
    assert (Q : forall c text0 text u, unquoted_segment (text0 ++ text) ++ scan (Some (c, [c])) [] u = join_outside text0 (unquoted_segment text ++ scan (Some (c, [c])) [] u)).
    { intros c text0 text u. apply join_outside_inside. destruct (scan_inside_head c [c] u []) as (b & tr & r & E). exists (mkSegment [c] b tr [c]), r. split; [exact E|discriminate]. }
    induction s as [|c|c d t IH IH'] using two_step; intros text0 text.
    - cbn. rewrite <- (app_nil_r text0) at 1. rewrite <- app_assoc. cbn. destruct text; [now rewrite app_nil_r|]. destruct text0; reflexivity.
    - assert (E : (if chr_in c (quotes ++ multi) then unquoted_segment (text0 ++ text) ++ scan (Some (c, [c])) [] [] else scan None ((text0 ++ text) ++ [c]) []) =
                  join_outside text0 (if chr_in c (quotes ++ multi) then unquoted_segment text ++ scan (Some (c, [c])) [] [] else scan None (text ++ [c]) [])).
      { destruct (chr_in c _); [apply Q|]. cbn. rewrite <- app_assoc. destruct text0; cbn; destruct text; reflexivity. }
      cbn [DelimSpec.scan] in E |- *. destruct escape; exact E.
    - rewrite !scan_cons2. remember (d :: t) as u eqn:U. cbv zeta.
      assert (E : (if chr_in c (quotes ++ multi) then unquoted_segment (text0 ++ text) ++ scan (Some (c, [c])) [] u else scan None ((text0 ++ text) ++ [c]) u) =
                  join_outside text0 (if chr_in c (quotes ++ multi) then unquoted_segment text ++ scan (Some (c, [c])) [] u else scan None (text ++ [c]) u)).
      { destruct (chr_in c _); [apply Q|]. rewrite <- app_assoc. apply IH'. }
      destruct escape as [e|]; [|exact E]. destruct ((c =? e)%N && _); [|exact E]. rewrite <- app_assoc. apply IH.
  Qed.
End Run.
