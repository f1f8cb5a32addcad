(** Every execution follows the protocol. *)
From Verif Require Import PyBase StateModel StateSpec.

Section Proof.
  Context {M : Type} (E : env M).

  Lemma oeqb_true a b : oeqb a b = true <-> a = b.
  Proof.
    destruct a, b; cbn; split; intros H; try discriminate; auto.
    - apply Nat.eqb_eq in H. congruence. - injection H as ->. apply Nat.eqb_refl.
  Qed.
  Lemma oeqb_refl a : oeqb a a = true. Proof. now apply oeqb_true. Qed.
  Lemma follow_app c t1 t2 : follow E c (t1 ++ t2) = match follow E c t1 with Some c' => follow E c' t2 | None => None end.
  Proof. revert c. induction t1 as [|ev t IH]; intros c; cbn; auto. destruct (allowed E c ev); auto. Qed.

  (** [inv m c]: the trace so far is allowed and leads to [c], which describes [m] *)
  Record inv (m : mgr M) (c : conf) : Prop := mkInv {
    i_follow : follow E start (rev (m_trace m)) = Some c;
    i_state : c_state c = m_state m;
    i_obs : c_obs c = m_obs m;
    i_next : next_of (c_phase c) = m_next m;
    i_cache : m_copy m = m_tuple m
  }.
  Lemma follow_emit (m : mgr M) c ev c' : follow E start (rev (m_trace m)) = Some c -> allowed E c ev = Some c' ->
    follow E start (rev (m_trace (emit ev m))) = Some c'.
  Proof. intros H1 H2. cbn. rewrite follow_app, H1. cbn. now rewrite H2. Qed.

  Definition post (c c' : conf) (o : outcome) : Prop :=
    match c_phase c with
    | Idle => match o with
              | Fin _ => c_phase c' = Idle \/ exists n, c_phase c' = Wedged n
              | Timeout => user_code (c_phase c') = true
              end
    | p => c_phase c' = p /\ c_state c' = c_state c
    end.
  Definition good_run (run : prog M -> mgr M -> mgr M * outcome) : Prop :=
    forall p m c, inv m c -> user_code (c_phase c) = true ->
      exists c', inv (fst (run p m)) c' /\ post c c' (snd (run p m)).

  Lemma post_trans c c' c'' r o : post c c' (Fin r) -> user_code (c_phase c) = true -> post c' c'' o -> post c c'' o.
  Proof.
    unfold post. destruct (c_phase c) eqn:P; intros H U H'; try discriminate U.
    - destruct H as [H|[n H]]; rewrite H in H'; auto. destruct H' as [H' _]. destruct o; [right; eauto|now rewrite H'].
    - destruct H as [H1 H2]. rewrite H1 in H'. destruct H'. split; congruence.
    - destruct H as [H1 H2]. rewrite H1 in H'. destruct H'. split; congruence.
    - destruct H as [H1 H2]. rewrite H1 in H'. destruct H'. split; congruence.
  Qed.
  Lemma post_user c c' r : post c c' (Fin r) -> user_code (c_phase c) = true -> user_code (c_phase c') = true.
  Proof.
    unfold post. destruct (c_phase c) eqn:P; intros H U; try discriminate U.
    - destruct H as [H|[n H]]; now rewrite H.
    - destruct H as [H _]. now rewrite H.
    - destruct H as [H _]. now rewrite H.
    - destruct H as [H _]. now rewrite H.
  Qed.
  Lemma post_refl c r : user_code (c_phase c) = true -> post c c (Fin r).
  Proof. unfold post. destruct (c_phase c); auto; discriminate. Qed.
  Lemma post_same c c' o : user_code (c_phase c) = true -> c_phase c' = c_phase c -> c_state c' = c_state c -> post c c' o.
  Proof. unfold post. destruct (c_phase c); intros U H1 H2; auto. destruct o; auto. now rewrite H1. Qed.

  Lemma list_eq_same a : forall b, list_eq E a b = true ->
    Forall2 (fun x y => same_obs E x y = true) a b.
  Proof.
    induction a as [|x a IH]; intros [|y b]; cbn; intros H; try discriminate; constructor.
    - apply andb_true_iff in H. apply H.
    - apply IH. apply andb_true_iff in H. apply H.
  Qed.
  Lemma same_refl x : same_obs E x x = true. Proof. unfold same_obs. now rewrite Nat.eqb_refl. Qed.

  Lemma observers_ok run : good_run run -> forall l todo m c n,
    inv m c -> observing (c_phase c) = Some n -> pending c = todo ->
    Forall2 (fun x y => same_obs E x y = true) todo l ->
    exists c', inv (fst (call_observers E run l m)) c' /\ c_state c' = c_state c /\
      match snd (call_observers E run l m) with
      | Fin (Ok _) => observing (c_phase c') = Some n /\ pending c' = []
      | Fin (Err _) => exists t, c_phase c' = InObs n t
      | Timeout => user_code (c_phase c') = true
      end.
  Proof.
    intros HR. induction l as [|o t IH]; intros todo m c n I Ob Pe F; cbn [call_observers].
    - exists c. inversion F. subst todo. cbn. split; auto.
    - destruct todo as [|x l0]; [inversion F|].
      assert (Hs : same_obs E x o = true) by (inversion F; auto).
      assert (Hf : Forall2 (fun x y => same_obs E x y = true) l0 t) by (inversion F; auto). clear F.
       assert (Nx : m_next m = Some n).
      { rewrite <- (i_next _ _ I). destruct (c_phase c); cbn in Ob |- *; congruence. }
      set (m1 := emit (EObserve o (m_state m) (m_next m)) m).
      set (c1 := mkC (c_state c) (c_obs c) (InObs n l0)).
      assert (I1 : inv m1 c1).
      { constructor; cbn; try apply I; auto.
        eapply follow_emit; [apply I|]. cbn. rewrite Ob, Pe, Hs, (i_state _ _ I), Nx, !oeqb_refl. reflexivity. }
      destruct (HR (e_obs E o) m1 c1 I1 eq_refl) as (c2 & I2 & P2). fold m1.
      destruct (run (e_obs E o) m1) as [m2 o2]. cbn in I2, P2. destruct P2 as [P2 S2].
      destruct o2 as [[[]|e]|].
      + destruct (IH l0 m2 c2 n) as (c3 & I3 & S3 & P3); auto.
        * rewrite P2. reflexivity.
        * unfold pending. rewrite P2. reflexivity.
        * exists c3. split; auto. split; auto. congruence.
      + exists c2. split; auto. split; auto. cbn. eauto.
      + exists c2. cbn. rewrite P2. auto.
  Qed.

  Lemma notify_ok run : good_run run -> forall m c n,
    inv m c -> (c_phase c = InExit n \/ c_phase c = NoExit n) ->
    exists c', inv (fst (notify_observers E run m)) c' /\ c_state c' = c_state c /\
      match snd (notify_observers E run m) with
      | Fin (Ok _) => observing (c_phase c') = Some n /\ pending c' = []
      | Fin (Err _) => exists t, c_phase c' = InObs n t
      | Timeout => user_code (c_phase c') = true
      end.
  Proof.
    intros HR m c n I Ph.
    assert (Ob : observing (c_phase c) = Some n) by (destruct Ph as [-> | ->]; auto).
    assert (Pe : pending c = m_obs m) by (unfold pending; destruct Ph as [-> | ->]; apply I).
    unfold notify_observers. destruct (m_obs m) as [|o l] eqn:EO; [exists c; cbn; auto|].
    rewrite <- EO. destruct (list_eq E (m_obs m) (m_copy m)) eqn:EQ.
    - eapply observers_ok; eauto. rewrite <- (i_cache _ _ I), EO in *. now apply list_eq_same.
    - destruct (observers_ok run HR (m_obs m) (m_obs m) (set_cache (m_obs m) m) c n) as (c' & A & B & C); auto.
      + destruct I. constructor; auto.
      + congruence.
      + clear. induction (m_obs m); constructor; auto. apply same_refl.
      + exists c'. cbn [m_tuple set_cache]. auto.
  Qed.

  Lemma assign_ok run : good_run run -> forall s m c, inv m c -> user_code (c_phase c) = true ->
    exists c', inv (fst (assign E run s m)) c' /\ post c c' (snd (assign E run s m)).
  Proof.
    intros HR s m c I U.
    assert (Rej : forall e, refusal E c s = Some e -> exn_eqb e e = true ->
       exists c', inv (emit (EReject s e) m) c' /\ post c c' (Fin (Err e))).
    { intros e H1 H2. exists c. split; [|apply post_refl; auto]. destruct I as [I1 I2 I3 I4 I5]. constructor; auto.
      eapply follow_emit; eauto. cbn. now rewrite H1, U, H2. }
    unfold assign. destruct (e_class E s) eqn:Cl; cbn [negb].
    2:{ cbn. apply Rej; auto. unfold refusal. now rewrite Cl. }
    destruct s as [new|].
    2:{ cbn. apply Rej; auto. unfold refusal. now rewrite Cl. }
    destruct (m_next m) as [x|] eqn:Nx.
    { cbn. apply Rej; auto. unfold refusal. now rewrite Cl, (i_next _ _ I), Nx. }
    assert (Id : c_phase c = Idle).
    { pose proof (i_next _ _ I) as Q. rewrite Nx in Q. destruct (c_phase c); cbn in *; congruence. }
    assert (Sm : state_is m new = oeqb (c_state c) (Some new)).
    { rewrite (i_state _ _ I). unfold state_is. destruct (m_state m); auto. }
    rewrite Sm. destruct (oeqb (c_state c) (Some new)) eqn:Eq.
    { cbn. apply Rej; auto. unfold refusal. now rewrite Cl, Eq, orb_true_r. }
    set (m1 := set_next (Some new) (emit (EStart new) m)).
    (* after EStart *)
    assert (St : exists c1, inv m1 c1 /\ c_state c1 = c_state c /\ c_obs c1 = c_obs c /\
                  c_phase c1 = if has_exit E (c_state c) then ToExit new else NoExit new).
    { exists (mkC (c_state c) (c_obs c) (if has_exit E (c_state c) then ToExit new else NoExit new)).
      split; [|cbn; auto]. constructor; cbn; try apply I.
      - eapply follow_emit; [apply I|]. cbn. rewrite Id. unfold refusal. rewrite Cl, Id, Eq. cbn. reflexivity.
      - destruct (has_exit E (c_state c)); reflexivity. }
    destruct St as (c1 & I1 & S1 & O1 & P1).
    (* on_exit *)
    assert (Ex : exists c2, inv (fst (call_exit E run m1)) c2 /\ c_state c2 = c_state c /\
       match snd (call_exit E run m1) with
       | Fin (Ok _) => c_phase c2 = InExit new \/ c_phase c2 = NoExit new
       | Fin (Err _) => c_phase c2 = InExit new
       | Timeout => user_code (c_phase c2) = true end).
    { unfold call_exit. pose proof (i_state _ _ I1) as Q. destruct (m_state m1) as [old|] eqn:Eo.
      2:{ exists c1. cbn. split; auto. split; auto. rewrite P1. rewrite <- S1, Q. auto. }
      rewrite <- S1, Q in P1. cbn [has_exit] in P1. destruct (e_exit E old) as [p|] eqn:Ep; cbn [has] in P1.
      2:{ exists c1. cbn. split; auto. }
      set (m2 := emit (EExit old (Some old) (m_next m1)) m1).
      set (c2 := mkC (c_state c1) (c_obs c1) (InExit new)).
      assert (I2 : inv m2 c2).
      { constructor; try (cbn; apply I1); auto.
        - eapply follow_emit; [apply (i_follow _ _ I1)|]. cbn [allowed]. rewrite P1, Q. unfold m1. cbn [set_next m_next].
        rewrite !oeqb_refl. cbn. unfold c2, goto. congruence. }
      destruct (HR p m2 c2 I2 eq_refl) as (c3 & I3 & P3). cbn in P3. destruct P3 as [P3 S3].
      exists c3. split; auto. split; [cbn in S3; congruence|]. destruct (snd (run p m2)) as [[]|]; auto. now rewrite P3. }
    destruct Ex as (c2 & I2 & S2 & P2).
    destruct (call_exit E run m1) as [m2 o2] eqn:Ec. cbn in I2, P2. cbn [and_then].
    assert (Idle_post : forall c' o, match o with Fin _ => c_phase c' = Idle \/ (exists n, c_phase c' = Wedged n) | Timeout => user_code (c_phase c') = true end -> post c c' o).
    { intros c' o. unfold post. now rewrite Id. }
    assert (Fail : forall mm cc e n, inv mm cc -> (c_phase cc = InExit n \/ exists t, c_phase cc = InObs n t) ->
       exists c', inv (emit EFail mm) c' /\ post c c' (Fin (Err e))).
    { intros mm cc e n II Ph. exists (mkC (c_state cc) (c_obs cc) (Wedged n)). split; [|apply Idle_post; cbn; eauto].
      constructor; cbn; try apply II.
      - eapply follow_emit; [apply II|]. cbn. destruct Ph as [->|[t ->]]; reflexivity.
      - rewrite <- (i_next _ _ II). destruct Ph as [->|[t ->]]; reflexivity. }
    destruct o2 as [[[]|e]|]; cbn [fst snd].
    2:{ eapply Fail; eauto. }
    2:{ exists c2. split; auto. }
    destruct (notify_ok run HR m2 c2 new I2 P2) as (c3 & I3 & S3 & P3).
    destruct (notify_observers E run m2) as [m3 o3] eqn:En. cbn in I3, P3. cbn [and_then].
    destruct o3 as [[[]|e]|]; cbn [fst snd].
    2:{ destruct P3 as [t P3]. eapply Fail; eauto. }
    2:{ exists c3. split; auto. }
    destruct P3 as [P3 P4].
    unfold finish. set (m4 := emit ECommit (set_next None (set_state (Some new) m3))).
    assert (I4 : inv m4 (mkC (Some new) (c_obs c3) (if has (e_enter E new) then ToEnter new else Idle))).
    { constructor; cbn; try apply I3; auto.
      - rewrite follow_app, (i_follow _ _ I3). cbn. now rewrite P3, P4.
      - destruct (has (e_enter E new)); reflexivity. }
    destruct (e_enter E new) as [p|] eqn:Ee; cbn [has] in I4.
    2:{ eexists. cbn. split; [exact I4|]. apply Idle_post. cbn. auto. }
    set (m5 := emit (EEnter new (m_state m4) (m_next m4)) m4).
    set (c5 := mkC (Some new) (c_obs c3) Idle).
    assert (I5 : inv m5 c5).
    { constructor; cbn; try apply I3; auto.
      pose proof (follow_emit m4 _ (EEnter new (m_state m4) (m_next m4)) c5 (i_follow _ _ I4)) as Q.
      apply Q. cbn. rewrite Nat.eqb_refl. reflexivity. }
    destruct (HR p m5 c5 I5 eq_refl) as (c6 & I6 & P6). exists c6. split; auto.
  Qed.

  Lemma exec_ok d : good_run (exec E d).
  Proof.
    induction d as [|d IH]; intros p m c I U.
    - exists c. cbn. split; auto. apply post_same; auto.
    - revert m c I U. induction p as [r|k H|k H|k H|l p IHp|s k H|k H|x p IHp]; intros m c I U.
      + exists c. cbn. split; auto. apply post_refl. auto.
      + cbn [exec].
        set (m1 := emit (EReadState (m_state m)) m).
        destruct (H (m_state m) m1 c) as (c' & I' & P'); auto.
        { destruct I as [I1 I2 I3 I4 I5]. constructor; auto. eapply follow_emit; eauto. cbn. now rewrite U, I2, oeqb_refl. }
        exists c'. auto.
      + cbn [exec].
        set (m1 := emit (EReadNext (m_next m)) m).
        destruct (H (m_next m) m1 c) as (c' & I' & P'); auto.
        { destruct I as [I1 I2 I3 I4 I5]. constructor; auto. eapply follow_emit; eauto. cbn. now rewrite U, I4, oeqb_refl. }
        exists c'. auto.
      + cbn [exec]. apply (H (m_obs m) m c); auto.
      + cbn [exec].
        set (m1 := emit (EWriteObs l) (set_obs l m)). set (c1 := mkC (c_state c) l (c_phase c)).
        destruct (IHp m1 c1) as (c' & I' & P'); auto.
        { destruct I as [I1 I2 I3 I4 I5]. constructor; cbn; auto. rewrite follow_app, I1. cbn. now rewrite U. }
        exists c'. split; auto.
      + cbn [exec]. destruct (assign_ok (exec E d) IH s m c I U) as (c1 & I1 & P1).
        destruct (assign E (exec E d) s m) as [m1 [r|]] eqn:Ea; cbn in I1, P1.
        * destruct (H r m1 c1) as (c' & I' & P'); auto. { eapply post_user; eauto. }
          exists c'. split; auto. eapply post_trans; eauto.
        * exists c1. auto.
      + cbn [exec]. apply (H (m_mem m) m c); auto.
      + cbn [exec]. apply (IHp (set_mem x m) c); auto. destruct I. constructor; auto.
  Qed.

  Theorem session_ok d init p mem :
    exists c, follow E start (trace (session E d init p mem)) = Some c /\
      c_state c = m_state (fst (session E d init p mem)) /\
      c_obs c = m_obs (fst (session E d init p mem)) /\
      next_of (c_phase c) = m_next (fst (session E d init p mem)) /\
      match snd (session E d init p mem) with
      | Fin _ => c_phase c = Idle \/ exists n, c_phase c = Wedged n
      | Timeout => user_code (c_phase c) = true
      end.
  Proof.
    destruct (exec_ok d (Assign init p) (fresh mem) start) as (c & I & P).
    - constructor; reflexivity.
    - reflexivity.
    - exists c. destruct I as [I1 I2 I3 I4 I5]. do 4 (split; auto).
  Qed.

  (** consequences of following the protocol *)
  Lemma follow_split c t1 ev t2 c' : follow E c (t1 ++ ev :: t2) = Some c' ->
    exists c1 c2, follow E c t1 = Some c1 /\ allowed E c1 ev = Some c2 /\ follow E c2 t2 = Some c'.
  Proof.
    rewrite follow_app. destruct (follow E c t1) as [c1|]; [|discriminate]. cbn.
    destruct (allowed E c1 ev) as [c2|] eqn:A; [|discriminate]. eauto.
  Qed.
  Lemma wedged_for_ever t : forall c c' n, c_phase c = Wedged n -> follow E c t = Some c' ->
    c_phase c' = Wedged n /\ c_state c' = c_state c /\
    forall ev, In ev t -> match ev with EStart _ | ECommit | EExit _ _ _ | EObserve _ _ _ | EEnter _ _ _ | EFail => False
                          | EReadState v => v = c_state c | EReadNext v => v = Some n
                          | EReject _ _ | EWriteObs _ => True end.
  Proof.
    induction t as [|ev t IH]; intros c c' n P F; cbn in *.
    - injection F as <-. split; [auto|split; [auto|intros ? []]]. 
    - destruct (allowed E c ev) as [c1|] eqn:A; [|discriminate].
      assert (Q : c_phase c1 = Wedged n /\ c_state c1 = c_state c /\
        match ev with EStart _ | ECommit | EExit _ _ _ | EObserve _ _ _ | EEnter _ _ _ | EFail => False
                          | EReadState v => v = c_state c | EReadNext v => v = Some n
                          | EReject _ _ | EWriteObs _ => True end).
      { destruct ev; cbn in A; rewrite P in A; cbn in A; try discriminate.
        - destruct (oeqb v (c_state c)) eqn:Q; [|discriminate]. injection A as <-. apply oeqb_true in Q. auto.
        - destruct (oeqb v (Some n)) eqn:Q; [|discriminate]. injection A as <-. apply oeqb_true in Q. auto.
        - injection A as <-. auto.
        - destruct (refusal E c s); [|discriminate]. destruct (exn_eqb e e0); [|discriminate]. injection A as <-. auto. }
      destruct Q as (Q1 & Q2 & Q3). destruct (IH c1 c' n Q1 F) as (R1 & R2 & R3).
      split; auto. split; [congruence|]. intros ev' [<-|I]; auto. specialize (R3 ev' I). rewrite Q2 in R3. exact R3.
  Qed.
  (** between the acceptance of an assignment and its completion *)
  Definition going (p : phase) : option nat :=
    match p with ToExit n | InExit n | NoExit n | InObs n _ => Some n | _ => None end.
  Lemma going_inside t : forall c c' n, (going (c_phase c) = Some n \/ c_phase c = Wedged n) -> follow E c t = Some c' ->
    ~ In ECommit t ->
    (going (c_phase c') = Some n \/ c_phase c' = Wedged n) /\ c_state c' = c_state c /\
    forall ev, In ev t -> match ev with
      | EStart _ | EEnter _ _ _ => False
      | EExit s st nx => c_state c = Some s /\ st = c_state c /\ nx = Some n
      | EObserve _ st nx => st = c_state c /\ nx = Some n
      | EReadState v => v = c_state c | EReadNext v => v = Some n
      | _ => True end.
  Proof.
    induction t as [|ev t IH]; intros c c' n P F NC; cbn in *.
    - injection F as <-. split; [auto|split; [auto|intros ? []]].
    - destruct (allowed E c ev) as [c1|] eqn:A; [|discriminate].
      assert (Nx : next_of (c_phase c) = Some n) by (destruct P as [P|P]; destruct (c_phase c); cbn in *; congruence).
      assert (Q : (going (c_phase c1) = Some n \/ c_phase c1 = Wedged n) /\ c_state c1 = c_state c /\
        match ev with
      | EStart _ | EEnter _ _ _ => False
      | EExit s st nx => c_state c = Some s /\ st = c_state c /\ nx = Some n
      | EObserve _ st nx => st = c_state c /\ nx = Some n
      | EReadState v => v = c_state c | EReadNext v => v = Some n
      | _ => True end).
      { destruct ev; cbn [allowed] in A.
        - destruct (user_code (c_phase c) && oeqb v (c_state c)) eqn:Q; [|discriminate]. injection A as <-.
          apply andb_true_iff in Q. destruct Q as [_ Q]. apply oeqb_true in Q. auto.
        - destruct (user_code (c_phase c) && oeqb v (next_of (c_phase c))) eqn:Q; [|discriminate]. injection A as <-.
          apply andb_true_iff in Q. destruct Q as [_ Q]. apply oeqb_true in Q. rewrite Nx in Q. auto.
        - destruct (user_code (c_phase c)); [|discriminate]. injection A as <-. cbn. auto.
        - destruct (refusal E c s); [|discriminate]. destruct (user_code (c_phase c) && exn_eqb e e0); [|discriminate].
          injection A as <-. auto.
        - destruct P as [P|P]; destruct (c_phase c); cbn in *; discriminate.
        - destruct (c_phase c) eqn:Ph; try discriminate.
          destruct (oeqb (Some s) (c_state c)) eqn:Q1; [|discriminate].
          destruct (oeqb st (c_state c)) eqn:Q2; [|discriminate]. destruct (oeqb nx (Some new)) eqn:Q3; [|discriminate].
          cbn in A. injection A as <-. apply oeqb_true in Q1, Q2, Q3. cbn in Nx. injection Nx as ->. cbn. auto.
        - destruct (observing (c_phase c)) as [n'|] eqn:Ob; [|discriminate]. destruct (pending c) as [|o' t']; [discriminate|].
          assert (n' = n) by (destruct (c_phase c); cbn in *; congruence). subst n'.
          destruct (same_obs E o' o); [|discriminate].
          destruct (oeqb st (c_state c)) eqn:Q2; [|discriminate]. destruct (oeqb nx (Some n)) eqn:Q3; [|discriminate].
          cbn in A. injection A as <-. apply oeqb_true in Q2, Q3. cbn. auto.
        - destruct (c_phase c) eqn:Ph; try discriminate; cbn in A, Nx; injection A as <-; injection Nx as ->; cbn; auto.
        - exfalso. apply NC. auto.
        - destruct P as [P|P]; destruct (c_phase c); cbn in *; discriminate. }
      destruct Q as (Q1 & Q2 & Q3). destruct (IH c1 c' n Q1 F) as (R1 & R2 & R3).
      { intros I. apply NC. auto. }
      split; auto. split; [congruence|]. intros ev' [<-|I]; auto. specialize (R3 ev' I). rewrite Q2 in R3. exact R3.
  Qed.

  (** the observers called from a point inside a transition to its completion *)
  Lemma pending_called t : forall c c' n todo, c_phase c = InObs n todo -> follow E c t = Some c' ->
    ~ In EFail t -> ~ In ECommit t ->
    exists todo' l, c_phase c' = InObs n todo' /\ todo = l ++ todo' /\
      Forall2 (fun a b => same_obs E a b = true) l (observed t).
  Proof.
    induction t as [|ev t IH]; intros c c' n todo P F NF NC; cbn [follow In] in *.
    - injection F as <-. exists todo, []. split; [auto|]. split; [auto|]. constructor.
    - destruct (allowed E c ev) as [c1|] eqn:A; [|discriminate].
      assert (Q : (c_phase c1 = InObs n todo /\ observed [ev] = []) \/
         exists o o' todo', todo = o' :: todo' /\ c_phase c1 = InObs n todo' /\ observed [ev] = [o] /\ same_obs E o' o = true).
      { destruct ev; cbn [allowed] in A; rewrite ?P in A; cbn in A; try discriminate A.
        - destruct (oeqb v (c_state c)); [|discriminate]. injection A as <-. auto.
        - destruct (oeqb v (Some n)); [|discriminate]. injection A as <-. auto.
        - injection A as <-. cbn. auto.
        - destruct (refusal E c s); [|discriminate]. destruct (exn_eqb e e0); [|discriminate]. injection A as <-. auto.
        - unfold pending in A. rewrite P in A. destruct todo as [|o' t']; [discriminate|].
          destruct (same_obs E o' o) eqn:S; [|discriminate]. cbn in A.
          destruct (oeqb st (c_state c) && oeqb nx (Some n)); [|discriminate]. injection A as <-. right.
          exists o, o', t'. auto.
        - exfalso. apply NF. auto.
        - exfalso. apply NC. auto. }
      assert (Ob : observed (ev :: t) = observed [ev] ++ observed t).
      { unfold observed. cbn. now rewrite app_nil_r. }
      destruct Q as [[Q1 Q2]|(o & o' & t' & -> & Q1 & Q2 & Q3)].
      + destruct (IH c1 c' n todo Q1 F) as (x & l & X1 & X2 & X3); [tauto|tauto|].
        exists x, l. rewrite Ob, Q2. auto.
      + destruct (IH c1 c' n t' Q1 F) as (x & l & X1 & X2 & X3); [tauto|tauto|].
        exists x, (o' :: l). rewrite Ob, Q2. cbn. subst. split; auto.
  Qed.
  Lemma registered_follow t : forall c c', follow E c t = Some c' -> c_obs c' = registered (c_obs c) t.
  Proof.
    induction t as [|ev t IH]; intros c c' F; cbn in *; [congruence|].
    destruct (allowed E c ev) as [c1|] eqn:A; [|discriminate]. apply IH in F. rewrite F.
    assert (H : c_obs c1 = match ev with EWriteObs l => l | _ => c_obs c end).
    { destruct ev; cbn [allowed] in A;
        repeat match type of A with (match ?x with _ => _ end = _) => destruct x; try discriminate A end;
        unfold goto in A; try (injection A as <-); cbn; auto. }
    rewrite H. destruct ev; auto.
  Qed.
End Proof.
