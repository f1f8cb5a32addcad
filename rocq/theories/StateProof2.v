(** Shape of the transitions in traces that follow the protocol. *)
From Verif Require Import PyBase StateModel StateSpec StateProof.

Section Proof2.
  Context {M : Type} (E : env M).
  Notation same := (fun a b => same_obs E a b = true).

  Lemma calls_cons ev t : calls (ev :: t) = calls [ev] ++ calls t.
  Proof. unfold calls. cbn. destruct (is_call ev); auto. Qed.
  Lemma calls_app t u : calls (t ++ u) = calls t ++ calls u.
  Proof. unfold calls. apply filter_app. Qed.

  (** events user code may cause leave phase and state alone *)
  Lemma allowed_user c ev c1 : allowed E c ev = Some c1 ->
    match ev with EReadState _ | EReadNext _ | EWriteObs _ | EReject _ _ => True | _ => False end ->
    user_code (c_phase c) = true /\ c_phase c1 = c_phase c /\ c_state c1 = c_state c /\
    c_obs c1 = match ev with EWriteObs l => l | _ => c_obs c end /\ calls [ev] = [].
  Proof.
    intros A U. destruct ev; try contradiction; cbn [allowed] in A.
    - destruct (user_code (c_phase c)); [|discriminate]. destruct (oeqb v (c_state c)); [|discriminate]. injection A as <-. auto.
    - destruct (user_code (c_phase c)); [|discriminate]. destruct (oeqb v (next_of (c_phase c))); [|discriminate]. injection A as <-. auto.
    - destruct (user_code (c_phase c)); [|discriminate]. injection A as <-. auto.
    - destruct (refusal E c s); [|discriminate]. destruct (user_code (c_phase c)); [|discriminate].
      destruct (exn_eqb e e0); [|discriminate]. injection A as <-. auto.
  Qed.
  Lemma allowed_observe c o st nx c1 : allowed E c (EObserve o st nx) = Some c1 ->
    exists n o' t, observing (c_phase c) = Some n /\ pending c = o' :: t /\ same o' o /\ st = c_state c /\ nx = Some n /\
      c1 = mkC (c_state c) (c_obs c) (InObs n t).
  Proof.
    cbn [allowed]. destruct (observing (c_phase c)) as [n|]; [|discriminate]. destruct (pending c) as [|o' t]; [discriminate|].
    destruct (same_obs E o' o) eqn:S; [|discriminate]. destruct (oeqb st (c_state c)) eqn:S1; [|discriminate].
    destruct (oeqb nx (Some n)) eqn:S2; [|discriminate]. cbn. intros H. injection H as <-.
    apply oeqb_true in S1, S2. exists n, o', t. auto 10.
  Qed.
  Lemma wedged_not_going t c c' n : c_phase c = Wedged n -> follow E c t = Some c' -> going (c_phase c') = None.
  Proof. intros P F. destruct (wedged_for_ever E t c c' n P F) as (-> & _). reflexivity. Qed.

  Lemma obs_calls t : forall c c' n n' todo, c_phase c = InObs n todo -> follow E c t = Some c' ->
    going (c_phase c') = Some n' -> ~ In ECommit t ->
    exists todo' l os, c_phase c' = InObs n todo' /\ c_state c' = c_state c /\ todo = l ++ todo' /\ Forall2 same l os /\
      calls t = map (fun o => EObserve o (c_state c) (Some n)) os.
  Proof.
    induction t as [|ev t IH]; intros c c' n n' todo P F G NC; cbn [follow In] in *.
    - injection F as <-. exists todo, [], []. cbn. auto.
    - destruct (allowed E c ev) as [c1|] eqn:A; [|discriminate]. rewrite calls_cons.
      assert (U : forall (Ha : match ev with EReadState _ | EReadNext _ | EWriteObs _ | EReject _ _ => True | _ => False end),
        exists todo' l os, c_phase c' = InObs n todo' /\ c_state c' = c_state c /\ todo = l ++ todo' /\ Forall2 same l os /\
        calls [ev] ++ calls t = map (fun o => EObserve o (c_state c) (Some n)) os).
      { intros Ha. destruct (allowed_user _ _ _ A Ha) as (_ & P1 & S1 & _ & C1). rewrite P in P1.
        destruct (IH c1 c' n n' todo P1 F G) as (a & b & os & X); [tauto|]. exists a, b, os. rewrite C1. cbn [app].
        rewrite S1 in X. exact X. }
      destruct ev; try (exact (U I)); cbn [allowed] in A; rewrite ?P in A; try discriminate A.
      + change (allowed E c (EObserve o st nx) = Some c1) in A || (fold (allowed E c (EObserve o st nx)) in A).
        cbn [observing] in A.
        unfold pending in A. rewrite P in A. destruct todo as [|o' t']; [discriminate|].
        destruct (same_obs E o' o) eqn:S; [|discriminate]. destruct (oeqb st (c_state c)) eqn:S1; [|discriminate].
        destruct (oeqb nx (Some n)) eqn:S2; [|discriminate]. cbn in A. injection A as <-. apply oeqb_true in S1, S2. subst st nx.
        edestruct (IH (mkC (c_state c) (c_obs c) (InObs n t')) c' n n' t') as (a & b & os & X1 & X2 & X3 & X4 & X5); auto.
        exists a, (o' :: b), (o :: os). cbn in X2, X5 |- *. rewrite X3, X5. cbn. auto 6.
      + cbn in A. injection A as <-. exfalso.
        rewrite (wedged_not_going t (mkC (c_state c) (c_obs c) (Wedged n)) c' n eq_refl F) in G. discriminate.
      + tauto.
  Qed.

  Definition first_is_observe (t : list event) : Prop :=
    match t with [] => True | EObserve _ _ _ :: _ => True | _ => False end.
  Lemma exit_calls t : forall c c' n n', (c_phase c = InExit n \/ c_phase c = NoExit n) -> follow E c t = Some c' ->
    going (c_phase c') = Some n' -> ~ In ECommit t ->
    exists ta tb l os, t = ta ++ tb /\ calls ta = [] /\ first_is_observe tb /\
      registered (c_obs c) ta = l ++ pending c' /\ Forall2 same l os /\
      calls tb = map (fun o => EObserve o (c_state c) (Some n)) os /\ c_state c' = c_state c.
  Proof.
    induction t as [|ev t IH]; intros c c' n n' P F G NC; cbn [follow In] in *.
    - injection F as <-. exists [], [], [], []. cbn. unfold pending.
      destruct P as [-> | ->]; auto 10.
    - destruct (allowed E c ev) as [c1|] eqn:A; [|discriminate].
      assert (U : forall (Ha : match ev with EReadState _ | EReadNext _ | EWriteObs _ | EReject _ _ => True | _ => False end),
        exists ta tb l os, ev :: t = ta ++ tb /\ calls ta = [] /\ first_is_observe tb /\
      registered (c_obs c) ta = l ++ pending c' /\ Forall2 same l os /\
      calls tb = map (fun o => EObserve o (c_state c) (Some n)) os /\ c_state c' = c_state c).
      { intros Ha. destruct (allowed_user _ _ _ A Ha) as (_ & P1 & S1 & O1 & C1).
        destruct (IH c1 c' n n') as (ta & tb & l & os & X1 & X2 & X3 & X4 & X5 & X6 & X7); auto.
        { destruct P as [P|P]; rewrite P in P1; auto. }
        exists (ev :: ta), tb, l, os. rewrite S1 in X6. rewrite calls_cons, C1, X2. rewrite X1.
        do 3 (split; auto). split; [|split; [auto|split; [auto|congruence]]].
        rewrite O1 in X4. rewrite <- X4. destruct ev; auto; contradiction. }
      destruct ev; try (exact (U I)).
      + exfalso. cbn [allowed] in A. destruct P as [P|P]; rewrite P in A; discriminate.
      + exfalso. cbn [allowed] in A. destruct P as [P|P]; rewrite P in A; discriminate.
      + destruct (allowed_observe _ _ _ _ _ A) as (n1 & o' & t' & H1 & H2 & H3 & H4 & H5 & H6).
        assert (n1 = n) by (destruct P as [P|P]; rewrite P in H1; cbn in H1; congruence). subst n1 st nx c1.
        edestruct (obs_calls t (mkC (c_state c) (c_obs c) (InObs n t')) c' n n' t' eq_refl F G) as (a & b & os & X1 & X2 & X3 & X4 & X5); [tauto|].
        exists [], (EObserve o (c_state c) (Some n) :: t), (o' :: b), (o :: os). cbn in X5.
        rewrite calls_cons, X5. cbn. do 3 (split; auto). split; [|split; [auto|split; auto]].
        assert (Q : pending c = c_obs c) by (unfold pending; destruct P as [-> | ->]; auto).
        rewrite <- Q, H2, X3. f_equal. unfold pending. now rewrite X1.
      + exfalso. cbn [allowed] in A. destruct P as [P|P]; rewrite P in A; cbn in A; [|discriminate]. injection A as <-.
        rewrite (wedged_not_going t (mkC (c_state c) (c_obs c) (Wedged n)) c' n eq_refl F) in G. discriminate.
      + tauto.
      + exfalso. cbn [allowed] in A. destruct P as [P|P]; rewrite P in A; discriminate.
  Qed.

  Definition goal_of (p : phase) : option nat := match p with ToEnter _ => None | _ => next_of p end.
  Lemma current_follow t : forall c c', follow E c t = Some c' ->
    current_from (c_state c) (goal_of (c_phase c)) t = c_state c'.
  Proof.
    induction t as [|ev t IH]; intros c c' F; cbn [follow] in F.
    - injection F as <-. reflexivity.
    - destruct (allowed E c ev) as [c1|] eqn:A; [|discriminate]. apply IH in F. rewrite <- F. clear F IH.
      destruct ev.
      1,2,3,4: destruct (allowed_user _ _ _ A Logic.I) as (_ & P1 & S1 & _); cbn [current_from]; now rewrite P1, S1.
      + cbn [allowed] in A. destruct (c_phase c); try discriminate. destruct (refusal E c (Some new)); [discriminate|].
        injection A as <-. cbn. destruct (has_exit E (c_state c)); reflexivity.
      + cbn [allowed] in A. destruct (c_phase c) eqn:P; try discriminate.
        destruct (oeqb (Some s) (c_state c) && oeqb st (c_state c) && oeqb nx (Some new)); [|discriminate].
        injection A as <-. reflexivity.
      + destruct (allowed_observe _ _ _ _ _ A) as (n1 & o' & t' & H1 & H2 & H3 & H4 & H5 & ->). cbn.
        f_equal. destruct (c_phase c); cbn in H1 |- *; congruence.
      + cbn [allowed] in A. destruct (c_phase c) eqn:P; try discriminate; injection A as <-; reflexivity.
      + cbn [allowed] in A. destruct (observing (c_phase c)) as [n|] eqn:O; [|discriminate].
        destruct (pending c); [|discriminate]. injection A as <-. cbn.
        f_equal.
        * destruct (c_phase c); cbn in O |- *; congruence.
        * destruct (has (e_enter E n)); reflexivity.
      + cbn [allowed] in A. destruct (c_phase c) eqn:P; try discriminate.
        destruct (oeqb (Some s) (Some new) && oeqb st (Some new) && oeqb nx None); [|discriminate]. injection A as <-. reflexivity.
  Qed.
  Lemma current_start t c : follow E start t = Some c -> current t = c_state c.
  Proof. intros F. apply current_follow in F. exact F. Qed.

  (** phases in which a transition is in progress *)
  Lemma in_transition_app t u n : in_transition t n -> ~ In ECommit u -> (forall m, ~ In (EStart m) u) -> in_transition (t ++ u) n.
  Proof.
    intros (t1 & t2 & -> & A & B) C D. exists t1, (t2 ++ u). rewrite <- app_assoc. split; auto. split.
    - rewrite in_app_iff. tauto. - intros m. rewrite in_app_iff. intros [H|H]; [apply (B m H)|apply (D m H)].
  Qed.
  Lemma next_transition t c n : follow E start t = Some c -> next_of (c_phase c) = Some n -> in_transition t n.
  Proof.
    revert c n. induction t as [|ev t IH] using rev_ind; intros c n F Nx.
    - injection F as <-. discriminate.
    - rewrite follow_app in F. destruct (follow E start t) as [c0|] eqn:F0; [|discriminate]. cbn in F.
      destruct (allowed E c0 ev) as [c1|] eqn:A; [|discriminate]. injection F as ->.
      assert (Step : next_of (c_phase c0) = Some n -> ev <> ECommit -> (forall m, ev <> EStart m) -> in_transition (t ++ [ev]) n).
      { intros H1 H2 H3. apply in_transition_app; [eapply IH; eauto|cbn; intuition|]. intros m [H|[]]. apply (H3 m H). }
      destruct ev; try (destruct (allowed_user _ _ _ A Logic.I) as (_ & P1 & _); rewrite P1 in Nx; apply Step; auto; congruence).
      + cbn [allowed] in A. destruct (c_phase c0); try discriminate. destruct (refusal E c0 (Some new)); [discriminate|].
        injection A as <-. exists t, []. assert (new = n) as -> by (cbn in Nx; destruct (has_exit E (c_state c0)); cbn in Nx; congruence).
        split; auto.
      + apply Step; try congruence. cbn [allowed] in A. destruct (c_phase c0) eqn:P; try discriminate.
        destruct (oeqb (Some s) (c_state c0) && oeqb st (c_state c0) && oeqb nx (Some new)); [|discriminate].
        injection A as <-. exact Nx.
      + apply Step; try congruence. destruct (allowed_observe _ _ _ _ _ A) as (n1 & o' & t' & H1 & H2 & H3 & H4 & H5 & ->).
        cbn in Nx. destruct (c_phase c0); cbn in H1 |- *; congruence.
      + apply Step; try congruence. cbn [allowed] in A. destruct (c_phase c0) eqn:P; try discriminate; injection A as <-; exact Nx.
      + cbn [allowed] in A. destruct (observing (c_phase c0)) as [n1|] eqn:O; [|discriminate].
        destruct (pending c0); [|discriminate]. injection A as <-. cbn in Nx. destruct (has (e_enter E n1)); discriminate.
      + apply Step; try congruence. cbn [allowed] in A. destruct (c_phase c0) eqn:P; try discriminate.
        destruct (oeqb (Some s) (Some new) && oeqb st (Some new) && oeqb nx None); [|discriminate]. injection A as <-. discriminate.
  Qed.
  Lemma no_fail_no_wedge t : forall c c', follow E c t = Some c' -> (forall n, c_phase c <> Wedged n) -> ~ In EFail t -> forall n, c_phase c' <> Wedged n.
  Proof.
    induction t as [|ev t IH]; intros c c' F W NF; cbn [follow In] in *.
    - injection F as <-. auto.
    - destruct (allowed E c ev) as [c1|] eqn:A; [|discriminate]. apply (IH c1 c' F); [|tauto].
      intros n. destruct ev; try (destruct (allowed_user _ _ _ A Logic.I) as (_ & P1 & _); rewrite P1; apply W).
      + cbn [allowed] in A. destruct (c_phase c); try discriminate. destruct (refusal E c (Some new)); [discriminate|].
        injection A as <-. cbn. destruct (has_exit E (c_state c)); discriminate.
      + cbn [allowed] in A. destruct (c_phase c) eqn:P; try discriminate.
        destruct (oeqb (Some s) (c_state c) && oeqb st (c_state c) && oeqb nx (Some new)); [|discriminate].
        injection A as <-. discriminate.
      + destruct (allowed_observe _ _ _ _ _ A) as (n1 & o' & t' & H1 & H2 & H3 & H4 & H5 & ->). discriminate.
      + tauto.
      + cbn [allowed] in A. destruct (observing (c_phase c)) as [n1|] eqn:O; [|discriminate].
        destruct (pending c); [|discriminate]. injection A as <-. cbn. destruct (has (e_enter E n1)); discriminate.
      + cbn [allowed] in A. destruct (c_phase c) eqn:P; try discriminate.
        destruct (oeqb (Some s) (Some new) && oeqb st (Some new) && oeqb nx None); [|discriminate]. injection A as <-. discriminate.
  Qed.
End Proof2.
