(** split_delimiters: the scanner in two steps. *)
From Verif Require Import PyStr DelimModel DelimSpec ResumeSpec DelimProof2 DelimProof5 DelimProps.
From Coq Require Import Lia.

Definition fin (x : str) : list tuple3 := match x with [] => [] | _ => [(x, [], [])] end.
Section Run1.
  Context (table : list (chr * delimiter1)) (lb : chr -> bool).
  Notation scan1 := (scan1 table lb).
  Notation opens := (opens table).
  Notation reserved := (reserved table).
  Definition here := option (list delimiter1 * str * bool).
  Definition put (x : tuple3) (r : list tuple3 * here) : list tuple3 * here := (x :: fst r, snd r).
  Fixpoint run1 (stack : list delimiter1) (text : str) (escaped : bool) (s : str) : list tuple3 * here :=
    match s with
    | [] => ([], Some (stack, text, escaped))
    | c :: t =>
        let plain := run1 stack (text ++ [c]) false t in
        let outside_quotes (close : option (chr * list delimiter1)) :=
          match opens c with
          | Some d => put (text, [c], []) (run1 (d :: stack) [] false t)
          | None =>
              match close with
              | Some (x, below) => if (c =? x)%N then put (text, [], [c]) (run1 below [] false t) else if reserved c then ([], None) else plain
              | None => if reserved c then ([], None) else plain
              end
          end in
        if escaped then plain
        else match stack with
             | [] => outside_quotes None
             | Nest x :: below => outside_quotes (Some (x, below))
             | Quote x e multiline :: below =>
                 if (c =? e)%N then run1 stack (text ++ [c]) true t
                 else if (c =? x)%N then put (text, [], [c]) (run1 below [] false t)
                 else if negb multiline && lb c then ([], None) else plain
             end
    end.
  Definition go_on (r : list tuple3 * here) (s2 : str) : list tuple3 * option exn :=
    match snd r with None => (fst r, Some SyntaxError) | Some (k, x, e) => let '(b, err) := scan1 k x e s2 in (fst r ++ b, err) end.
  Lemma go_put x r s2 : go_on (put x r) s2 = let '(l, e) := go_on r s2 in (x :: l, e).
  Proof. destruct r as [l [[[k y] e]|]]; cbn; auto. unfold go_on. cbn. destruct (scan1 k y e s2); reflexivity. Qed.
  Lemma scan1_app s2 s : forall stack text e, scan1 stack text e (s ++ s2) = go_on (run1 stack text e s) s2.
  Proof.
    induction s as [|c s IH]; intros stack text e.
    - cbn. unfold go_on. cbn. destruct (scan1 stack text e s2); reflexivity.
    - cbn [app DelimSpec.scan1 run1]. destruct e; [apply IH|]. destruct stack as [|[x|x e m] st].
      + destruct (opens c); [rewrite go_put, IH; reflexivity|]. destruct (reserved c); [reflexivity|apply IH].
      + destruct (opens c); [rewrite go_put, IH; reflexivity|]. destruct (c =? x)%N; [rewrite go_put, IH; reflexivity|]. destruct (reserved c); [reflexivity|apply IH].
      + destruct (c =? e)%N; [apply IH|]. destruct (c =? x)%N; [rewrite go_put, IH; reflexivity|]. destruct (negb m && lb c); [reflexivity|apply IH].
  Qed.
  Lemma scan1_run s stack text e : scan1 stack text e s = go_on (run1 stack text e s) [].
  Proof. rewrite <- scan1_app, app_nil_r. reflexivity. Qed.
  Definition join_text (x0 : str) (r : list tuple3 * option exn) : list tuple3 * option exn :=
    match r with
    | ((t, o, c) :: l, e) => ((x0 ++ t, o, c) :: l, e)
    | ([], None) => (fin x0, None)
    | ([], Some e) => ([], Some e)
    end.
  Lemma scan1_text_app x0 s : forall stack text e, scan1 stack (x0 ++ text) e s = join_text x0 (scan1 stack text e s).
  Proof.
    induction s as [|c s IH]; intros stack text e.
    - cbn. destruct e; auto. destruct text; cbn; [now rewrite app_nil_r|]. destruct x0; reflexivity.
    - cbn [DelimSpec.scan1]. rewrite <- !app_assoc. destruct e; [apply IH|]. destruct stack as [|[x|x e m] st].
      + destruct (opens c); [destruct (scan1 _ _ _ s); reflexivity|]. destruct (reserved c); [reflexivity|apply IH].
      + destruct (opens c); [destruct (scan1 _ _ _ s); reflexivity|]. destruct (c =? x)%N; [destruct (scan1 _ _ _ s); reflexivity|]. destruct (reserved c); [reflexivity|apply IH].
      + destruct (c =? e)%N; [apply IH|]. destruct (c =? x)%N; [destruct (scan1 _ _ _ s); reflexivity|]. destruct (negb m && lb c); [reflexivity|apply IH].
  Qed.
  Lemma enter1_snoc st : forall s0 k, enter1 table s0 (st ++ [k]) =
    match enter1 table s0 st with None => None | Some (Quote _ _ _ :: _) => None | Some stk => match opens k with Some d => Some (d :: stk) | None => None end end.
  Proof.
    induction st as [|c st IH]; intros s0 k; cbn; [destruct s0 as [|[|]]; auto|].
    destruct s0 as [|[|]]; auto; destruct (DelimSpec.opens table c); auto.
  Qed.
  Lemma enter1_pop state d below : enter1 table [] state = Some (d :: below) -> exists st k, state = st ++ [k] /\ enter1 table [] st = Some below.
  Proof.
    destruct state as [|k st _] using rev_ind; [discriminate|]. rewrite enter1_snoc. destruct (enter1 table [] st) as [stk|] eqn:E; [|discriminate]. intros H.
    exists st, k. split; auto. rewrite E. destruct stk as [|[x|x e m] r]; [| |discriminate]; destruct (DelimSpec.opens table k); congruence.
  Qed.
  Lemma track_app a b : forall st, track st (a ++ b) = track (track st a) b.
  Proof. induction a as [|[[x o] c] a IH]; intros st; cbn; auto. Qed.
  Lemma track_fin st x : track st (fin x) = st. Proof. destruct x; reflexivity. Qed.
  Lemma track_run s : forall state stack text e a k x e', enter1 table [] state = Some stack -> run1 stack text e s = (a, Some (k, x, e')) ->
    exists state', track (map one state) a = map one state' /\ enter1 table [] state' = Some k.
  Proof.
    assert (P : forall x r a h, put x r = (a, h) -> exists a', r = (a', h) /\ a = x :: a') by (intros x [a' h'] a h [= <- <-]; eauto).
    induction s as [|c s IH]; intros state stack text esc a k x e' En R; cbn [run1] in R.
    - injection R as <- <- _ _. exists state. auto.
    - assert (Open : forall d, opens c = Some d -> (match stack with Quote _ _ _ :: _ => False | _ => True end) -> put (text, [c], []) (run1 (d :: stack) [] false s) = (a, Some (k, x, e')) ->
        exists state', track (map one state) a = map one state' /\ enter1 table [] state' = Some k).
      { intros d O Q H. apply P in H. destruct H as (a' & H & ->). cbn [track]. assert (En' : enter1 table [] (state ++ [c]) = Some (d :: stack)).
        { rewrite enter1_snoc, En, O. destruct stack as [|[|] ?]; auto. contradiction. }
        destruct (IH _ _ _ _ _ _ _ _ En' H) as (st' & T & En2). exists st'. split; auto. rewrite map_app in T. exact T. }
      assert (Close : forall d below, stack = d :: below -> put (text, [], [c]) (run1 below [] false s) = (a, Some (k, x, e')) ->
        exists state', track (map one state) a = map one state' /\ enter1 table [] state' = Some k).
      { intros d below -> H. apply P in H. destruct H as (a' & H & ->). cbn [track]. destruct (enter1_pop _ _ _ En) as (st & k0 & -> & En'). rewrite map_app. change (map one [k0]) with [one k0]. rewrite removelast_last. eauto. }
      destruct esc; [eauto|]. destruct stack as [|[z|z e m] st].
      + destruct (opens c) eqn:O; [eapply Open; eauto|]. destruct (reserved c); [discriminate|eauto].
      + destruct (opens c) eqn:O; [eapply Open; eauto|]. destruct (c =? z)%N; [eapply Close; eauto|]. destruct (reserved c); [discriminate|eauto].
      + destruct (c =? e)%N; [eauto|]. destruct (c =? z)%N; [eapply Close; eauto|]. destruct (negb m && lb c); [discriminate|eauto].
  Qed.
  (** tuples of a run have a delimiter *)
  Lemma run1_marked s : forall stack text e a h, run1 stack text e s = (a, h) -> forall t o c, In (t, o, c) a -> o <> [] \/ c <> [].
  Proof.
    assert (P : forall x r a h, put x r = (a, h) -> exists a', r = (a', h) /\ a = x :: a') by (intros x [a' h'] a h [= <- <-]; eauto).
    induction s as [|c s IH]; intros stack text esc a h R t o cl I; cbn [run1] in R.
    - injection R as <- <-. contradiction.
    - assert (Open : forall st, put (text, [c], []) (run1 st [] false s) = (a, h) -> o <> [] \/ cl <> []).
      { intros st H. apply P in H. destruct H as (a' & H & ->). destruct I as [I|I]; [injection I as <- <- <-; left; discriminate|eauto]. }
      assert (Close : forall st, put (text, [], [c]) (run1 st [] false s) = (a, h) -> o <> [] \/ cl <> []).
      { intros st H. apply P in H. destruct H as (a' & H & ->). destruct I as [I|I]; [injection I as <- <- <-; right; discriminate|eauto]. }
      assert (Stop : ([], None) = (a, h) -> o <> [] \/ cl <> []) by (intros [= <- <-]; contradiction).
      destruct esc; [eauto|]. destruct stack as [|[z|z e m] st].
      + destruct (opens c); [eauto|]. destruct (reserved c); eauto.
      + destruct (opens c); [eauto|]. destruct (c =? z)%N; [eauto|]. destruct (reserved c); eauto.
      + destruct (c =? e)%N; [eauto|]. destruct (c =? z)%N; [eauto|]. destruct (negb m && lb c); eauto.
  Qed.
  Lemma splice_fin a x b e : (forall t o c, In (t, o, c) a -> o <> [] \/ c <> []) ->
    (a ++ fst (join_text x (b, e)), e) = (match b, e with [], Some _ => finished (a ++ fin x) | _, _ => splice (a ++ fin x) b end, e).
  Proof.
    intros M. assert (L : match rev a with (_, [], []) :: _ => False | _ => True end).
    { destruct a as [|y a' _] using rev_ind; cbn; auto. rewrite rev_app_distr. cbn. destruct y as [[t o] c]. specialize (M t o c). rewrite in_app_iff in M. cbn in M.
      destruct o, c; auto. destruct M as [M|M]; [auto|congruence|congruence]. }
    f_equal. unfold splice, finished. rewrite rev_app_distr.
    destruct x as [|z x]; cbn [fin rev app].
    - rewrite app_nil_r. destruct b as [|[[t o] c] b]; cbn.
      + destruct e; cbn; rewrite ?app_nil_r; destruct (rev a) as [|[[? [|]] [|]] ?]; auto; contradiction.
      + destruct (rev a) as [|[[? [|]] [|]] ?]; auto; contradiction.
    - destruct b as [|[[t o] c] b]; cbn.
      + destruct e; cbn; now rewrite ?rev_involutive, ?app_nil_r.
      + now rewrite rev_involutive.
  Qed.
  (** escaped at the end: the last character is an escape character *)
  Lemma run1_escaped s : forall stack text e a k x, (forall d, In d stack -> In d (map snd table)) -> run1 stack text e s = (a, Some (k, x, true)) ->
    (s = [] /\ e = true) \/ exists c s0 esc m, s = s0 ++ [esc] /\ In (Quote c esc m) (map snd table).
  Proof.
    assert (P : forall x r a h, put x r = (a, h) -> exists a', r = (a', h) /\ a = x :: a') by (intros x [a' h'] a h [= <- <-]; eauto).
    assert (OI : forall c d, opens c = Some d -> In d (map snd table)).
    { induction table as [|[k d'] t IH]; cbn; [discriminate|]. intros c d. destruct (k =? c)%N; [intros [= <-]; auto|eauto]. }
    induction s as [|c s IH]; intros stack text esc a k x F R; cbn [run1] in R.
    - injection R as <- <- _ ->. auto.
    - right. assert (Go : forall st tx e' a', (forall d, In d st -> In d (map snd table)) -> run1 st tx e' s = (a', Some (k, x, true)) -> (e' = true -> exists cl m, In (Quote cl c m) (map snd table)) ->
        exists c0 s0 esc0 m, c :: s = s0 ++ [esc0] /\ In (Quote c0 esc0 m) (map snd table)).
      { intros st tx e' a' F' H He. destruct (IH _ _ _ _ _ _ F' H) as [[-> ->]|(c0 & s0 & esc0 & m & -> & I)].
        - destruct (He eq_refl) as (cl & m & I). exists cl, [], c, m. auto.
        - exists c0, (c :: s0), esc0, m. auto. }
      destruct esc; [refine (Go _ _ _ _ F R _); discriminate|]. destruct stack as [|[z|z e m] st].
      + destruct (opens c) as [d|] eqn:O.
        * apply P in R. destruct R as (a' & R & ->). refine (Go _ _ _ _ _ R _); [|discriminate]. intros d' [<-|[]]. eauto.
        * destruct (reserved c); [discriminate|]. refine (Go _ _ _ _ F R _); discriminate.
      + destruct (opens c) as [d|] eqn:O.
        * apply P in R. destruct R as (a' & R & ->). refine (Go _ _ _ _ _ R _); [|discriminate]. intros d' [<-|I]; eauto.
        * destruct (c =? z)%N; [apply P in R; destruct R as (a' & R & ->); refine (Go _ _ _ _ _ R _); [|discriminate]; intros d' I; apply F; right; auto|].
          destruct (reserved c); [discriminate|]. refine (Go _ _ _ _ F R _); discriminate.
      + destruct (c =? e)%N eqn:Ce; [apply N.eqb_eq in Ce; subst c; refine (Go _ _ _ _ F R _); intros _; exists z, m; apply F; left; auto|].
        destruct (c =? z)%N; [apply P in R; destruct R as (a' & R & ->); refine (Go _ _ _ _ _ R _); [|discriminate]; intros d' I; apply F; right; auto|].
        destruct (negb m && lb c); [discriminate|]. refine (Go _ _ _ _ F R _); discriminate.
  Qed.
  Lemma enter1_from state : forall s0 stack, (forall d, In d s0 -> In d (map snd table)) -> enter1 table s0 state = Some stack -> forall d, In d stack -> In d (map snd table).
  Proof.
    assert (OI : forall c d, opens c = Some d -> In d (map snd table)).
    { induction table as [|[k d'] t IH]; cbn; [discriminate|]. intros c d. destruct (k =? c)%N; [intros [= <-]; auto|eauto]. }
    induction state as [|c state IH]; intros s0 stack F E; cbn in E; [injection E as <-; auto|].
    assert (E' : match opens c with Some d => enter1 table (d :: s0) state | None => None end = Some stack) by (destruct s0 as [|[|] ?]; [auto|auto|discriminate]).
    destruct (opens c) as [d|] eqn:O; [|discriminate]. eapply IH; [|exact E']. intros d' [<-|I]; eauto.
  Qed.
End Run1.
