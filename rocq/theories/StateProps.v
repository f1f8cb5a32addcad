(** StateManager: the properties C23-C26.  A session is: construct the manager with the
    initial state, then run an arbitrary program that uses it, with arbitrary on_enter,
    on_exit and observer callbacks.  [trace] is everything that happened, oldest first. *)
From Verif Require Import PyBase StateModel StateSpec StateProof StateProof2.

(** C23 (whole history): every session's trace is one the documented protocol allows, and
    the attributes after it are those the protocol prescribes. *)
Theorem C23_protocol : forall M (E : env M) depth init p mem,
  exists c, follow E start (trace (session E depth init p mem)) = Some c /\
    c_state c = m_state (fst (session E depth init p mem)) /\
    c_obs c = m_obs (fst (session E depth init p mem)) /\
    next_of (c_phase c) = m_next (fst (session E depth init p mem)) /\
    match snd (session E depth init p mem) with
    | Fin _ => c_phase c = Idle \/ exists n, c_phase c = Wedged n
    | Timeout => user_code (c_phase c) = true
    end.
Proof. intros. apply session_ok. Qed.

(** C23 (one transition): between the acceptance of "manager.state = n" and its
    completion the manager calls exactly: on_exit of the old state (if it has one), then
    each registered observer in order, all while state is still the old one and next is n;
    right after completion, with state n and next None, it calls on_enter of n (if it has
    one).  "Registered" is the observers list when the first observer is called. *)
Theorem C23_transition_sequence : forall M (E : env M) depth init p mem t1 n mid t2,
  trace (session E depth init p mem) = t1 ++ EStart n :: mid ++ ECommit :: t2 ->
  ~ In ECommit mid ->
  let old := current t1 in
  exists before after called,
    mid = before ++ after /\
    match old with
    | Some s => match e_exit E s with
                | Some _ => calls before = [EExit s (Some s) (Some n)] /\ hd_error before = Some (EExit s (Some s) (Some n))
                | None => before = []
                end
    | None => before = []
    end /\
    first_is_observe after /\
    calls after = map (fun o => EObserve o old (Some n)) called /\
    Forall2 (fun registered_one called_one => same_obs E registered_one called_one = true)
            (registered [] (t1 ++ EStart n :: before)) called /\
    match e_enter E n with
    | Some _ => hd_error t2 = Some (EEnter n (Some n) None)
    | None => True
    end.
Proof.
  intros M E depth init p mem t1 n mid t2 T NC old.
  destruct (session_ok E depth init p mem) as (c & F & _ & _ & _ & Fi).
  rewrite T in F. destruct (follow_split E _ _ _ _ _ F) as (c1 & c2 & F1 & A1 & F2).
  destruct (follow_split E _ _ _ _ _ F2) as (c3 & c4 & F3 & A3 & F4).
  assert (Hold : c_state c1 = old) by (symmetry; now apply (current_start E)).
  pose proof (registered_follow E _ _ _ F1) as R1. cbn [start c_obs] in R1.
  cbn [allowed] in A1. destruct (c_phase c1) eqn:P1; try discriminate. destruct (refusal E c1 (Some n)); [discriminate|].
  injection A1 as <-.
  cbn [allowed] in A3. destruct (observing (c_phase c3)) as [n3|] eqn:O3; [|discriminate].
  destruct (pending c3) eqn:Pe3; [|discriminate].
  assert (G3 : going (c_phase c3) = Some n3) by (destruct (c_phase c3); cbn in O3 |- *; congruence).
  assert (N3 : n3 = n).
  { edestruct (going_inside E mid) with (2 := F3) (n := n) as ([Q|Q] & _); auto.
    - left. cbn. destruct (has_exit E (c_state c1)); reflexivity.
    - congruence.
    - rewrite Q in O3. discriminate. }
  subst n3.
  assert (Enter : match e_enter E n with Some _ => hd_error t2 = Some (EEnter n (Some n) None) | None => True end).
  { destruct (e_enter E n) as [pe|] eqn:Ee; auto. injection A3 as <-. cbn [has] in F4.
    destruct t2 as [|ev t2]; cbn [follow] in F4.
    - injection F4 as <-. cbn in Fi. destruct (snd (session E depth init p mem)); [|discriminate Fi].
      destruct Fi as [Q|[x Q]]; discriminate Q.
    - destruct (allowed E _ ev) as [c5|] eqn:A5 in F4; [|discriminate]. destruct ev; cbn in A5; try discriminate.
      + destruct (refusal E (mkC (Some n) (c_obs c3) (ToEnter n)) s); discriminate.
      + match type of A5 with (if ?b then _ else _) = _ => destruct b eqn:QQ; [|discriminate] end.
        apply andb_true_iff in QQ. destruct QQ as [QQ Q3]. apply andb_true_iff in QQ. destruct QQ as [Q1 Q2].
        apply (oeqb_true (Some s) (Some n)) in Q1. apply oeqb_true in Q2, Q3. cbn. congruence. }
  assert (Reg : forall t, registered [] (t1 ++ t) = registered (c_obs c1) t).
  { intros t. rewrite R1. clear. generalize (@nil nat). induction t1 as [|ev t1 IH]; intros l; cbn; auto.
    destruct ev; apply IH. }
  rewrite Hold in F3. cbn [goto] in F3. unfold has_exit in F3.
  assert (Plain : has_exit E old = false -> exists after called, mid = after /\ first_is_observe after /\
      calls after = map (fun o => EObserve o old (Some n)) called /\
      Forall2 (fun x y => same_obs E x y = true) (registered [] (t1 ++ EStart n :: [])) called).
  { intros HE. unfold has_exit in HE. rewrite HE in F3.
    destruct (exit_calls E mid (mkC old (c_obs c1) (NoExit n)) c3 n n) as (ta & tb & l & os & X1 & X2 & X3 & X4 & X5 & X6 & X7); auto.
    (* nothing can happen in NoExit before the first observer *)
    assert (ta = []) as ->.
    { destruct ta as [|ev ta]; auto. exfalso. subst mid. cbn [app follow] in F3.
      destruct (allowed E _ ev) as [c5|] eqn:A5 in F3; [|discriminate].
      destruct ev; cbn in A5; try discriminate.
      - destruct (refusal E (mkC old (c_obs c1) (NoExit n)) s); discriminate.
      - apply NC. cbn. auto. }
    exists tb, os. cbn in X1. do 3 (split; auto). rewrite Reg. cbn in X4 |- *. rewrite X4, Pe3, app_nil_r. exact X5. }
  destruct old as [s|] eqn:Eold.
  2:{ destruct (Plain eq_refl) as (af & os & Y1 & Y2 & Y3 & Y4). exists [], af, os. auto 10. }
  destruct (e_exit E s) as [pe|] eqn:Ee.
  2:{ destruct Plain as (af & os & Y1 & Y2 & Y3 & Y4). { cbn. now rewrite Ee. } exists [], af, os. auto 10. }
  cbn [has] in F3. destruct mid as [|ev mid]; cbn [follow] in F3.
  { injection F3 as <-. cbn in O3. discriminate. }
  destruct (allowed E _ ev) as [c5|] eqn:A5 in F3; [|discriminate].
  destruct ev; cbn in A5; try discriminate.
  { destruct (refusal E (mkC (Some s) (c_obs c1) (ToExit n)) s0); discriminate. }
  match type of A5 with (if ?b then _ else _) = _ => destruct b eqn:QQ; [|discriminate] end.
  apply andb_true_iff in QQ. destruct QQ as [QQ Q3]. apply andb_true_iff in QQ. destruct QQ as [Q1 Q2].
  apply (oeqb_true (Some s0) (Some s)) in Q1. apply oeqb_true in Q2, Q3. injection Q1 as ->. subst st nx.
  cbn in A5. injection A5 as <-.
  destruct (exit_calls E mid (mkC (Some s) (c_obs c1) (InExit n)) c3 n n) as (ta & tb & l & os & X1 & X2 & X3 & X4 & X5 & X6 & X7); auto.
  { intros I. apply NC. right. exact I. }
  exists (EExit s (Some s) (Some n) :: ta), tb, os. rewrite X1. cbn [app hd_error]. split; auto.
  split. { split; auto. rewrite calls_cons, X2. reflexivity. }
  split; auto. split; auto. split; auto.
  rewrite Reg. cbn in X4 |- *. rewrite X4, Pe3, app_nil_r. exact X5.
Qed.

(** C24: an assignment made while next is set, of None, of the current state object or of
    an object of the wrong class raises, calls nothing and changes nothing ([emit] only
    records the attempt in the trace). *)
Definition nothing_changed {M} (m m' : mgr M) : Prop :=
  m_state m' = m_state m /\ m_next m' = m_next m /\ m_obs m' = m_obs m /\ m_mem m' = m_mem m /\
  m_copy m' = m_copy m /\ m_tuple m' = m_tuple m.
Theorem C24_illegal_assignment : forall M (E : env M) depth s m,
  (m_next m <> None \/ s = None \/ s = m_state m \/ e_class E s = false) ->
  exists e, snd (assign E (exec E depth) s m) = Fin (Err e) /\
    nothing_changed m (fst (assign E (exec E depth) s m)) /\
    m_trace (fst (assign E (exec E depth) s m)) = EReject s e :: m_trace m /\
    (e = TransitionError <-> e_class E s = true /\ s <> None).
Proof.
  intros M E depth s m H. unfold assign, nothing_changed.
  destruct (e_class E s) eqn:C; cbn [negb].
  2:{ exists TypeError. cbn. do 3 (split; auto 10). split; [discriminate|]. intros [? _]; discriminate. }
  destruct s as [new|].
  2:{ exists ValueError. cbn. do 3 (split; auto 10). split; [discriminate|]. intros [_ ?]; congruence. }
  destruct (m_next m) as [x|] eqn:N.
  { exists TransitionError. cbn. rewrite N. do 3 (split; auto 10). split; auto. split; auto. congruence. }
  destruct H as [H|[H|[H|H]]]; try congruence. unfold state_is. rewrite <- H, Nat.eqb_refl.
  exists TransitionError. cbn. do 3 (split; auto 10). split; auto. split; auto. congruence.
Qed.
(** C24 on histories: between the acceptance of an assignment and its completion no other
    assignment is accepted, and everyone who looks sees the old state and next = n. *)
Theorem C24_no_nested_transition : forall M (E : env M) depth init p mem t1 n mid t2,
  trace (session E depth init p mem) = t1 ++ EStart n :: mid ++ t2 ->
  ~ In ECommit mid ->
  forall ev, In ev mid -> match ev with
    | EStart _ | EEnter _ _ _ => False
    | EExit s st nx => current t1 = Some s /\ st = current t1 /\ nx = Some n
    | EObserve _ st nx => st = current t1 /\ nx = Some n
    | EReadState v => v = current t1
    | EReadNext v => v = Some n
    | _ => True end.
Proof.
  intros M E depth init p mem t1 n mid t2 T NC.
  destruct (session_ok E depth init p mem) as (c & F & _).
  rewrite T in F. destruct (follow_split E _ _ _ _ _ F) as (c1 & c2 & F1 & A1 & F2).
  rewrite follow_app in F2. destruct (follow E c2 mid) as [c3|] eqn:F3; [|discriminate].
  apply (current_start E) in F1. cbn [allowed] in A1. destruct (c_phase c1); try discriminate.
  destruct (refusal E c1 (Some n)); [discriminate|]. injection A1 as <-.
  destruct (going_inside E mid) with (2 := F3) (n := n) as (_ & _ & R); auto.
  { left. cbn. destruct (has_exit E (c_state c1)); reflexivity. }
  cbn in R. rewrite F1. exact R.
Qed.

(** C25 is false: an exception in on_exit or an observer leaves next set for ever.  Every
    later assignment is refused, whatever any program does. *)
Theorem C25_failure_wedges_for_ever : forall M (E : env M) depth init p mem t1 t2,
  trace (session E depth init p mem) = t1 ++ EFail :: t2 ->
  m_next (fst (session E depth init p mem)) <> None /\
  m_state (fst (session E depth init p mem)) = current t1 /\
  forall ev, In ev t2 -> match ev with EReject _ _ | EWriteObs _ | EReadState _ | EReadNext _ => True | _ => False end.
Proof.
  intros M E depth init p mem t1 t2 T.
  destruct (session_ok E depth init p mem) as (c & F & S & _ & N & _).
  rewrite T in F. destruct (follow_split E _ _ _ _ _ F) as (c1 & c2 & F1 & A1 & F2).
  assert (W : exists n, c_phase c2 = Wedged n /\ c_state c2 = c_state c1).
  { cbn [allowed] in A1. destruct (c_phase c1); try discriminate; injection A1 as <-; cbn; eauto. }
  destruct W as (n & W & S2). destruct (wedged_for_ever E _ _ _ _ W F2) as (P & S3 & R).
  rewrite <- N, P, <- S, S3, S2, (current_start E _ _ F1). split; [discriminate|]. split; auto.
  intros ev I. specialize (R ev I). destruct ev; auto.
Qed.

(** a machine whose state 1 raises in on_exit: the move to 2 fails, and so do all others *)
Definition E25 : env unit :=
  mkEnv (fun _ => true) (fun s => if s =? 1 then Some (Ret (Err ValueError)) else None) (fun _ => None)
        (fun _ => Ret (Ok tt)) Nat.eqb.
Definition p25 (_ : result unit) : prog unit :=
  Assign (Some 2) (fun _ => Assign (Some 3) (fun r => Ret r)).
Theorem C25_refuted : exists depth mem,
  snd (session E25 depth (Some 1) p25 mem) = Fin (Err TransitionError) /\
  m_state (fst (session E25 depth (Some 1) p25 mem)) = Some 1 /\
  m_next (fst (session E25 depth (Some 1) p25 mem)) = Some 2.
Proof. exists 5, tt. repeat split. Qed.

(** what does hold: a TransitionError for an assignment to another object than the current
    state only ever happens while a transition is in progress - so if no on_exit or observer
    has raised, every legal assignment made outside a transition is accepted, and a session
    that is over leaves next = None. *)
Theorem C25_partial : forall M (E : env M) depth init p mem,
  (forall t1 s t2, trace (session E depth init p mem) = t1 ++ EReject (Some s) TransitionError :: t2 ->
     current t1 = Some s \/ exists n, in_transition t1 n) /\
  (~ In EFail (trace (session E depth init p mem)) ->
   forall r, snd (session E depth init p mem) = Fin r -> m_next (fst (session E depth init p mem)) = None).
Proof.
  intros M E depth init p mem. destruct (session_ok E depth init p mem) as (c & F & S & _ & N & Fi). split.
  - intros t1 s t2 T. rewrite T in F. destruct (follow_split E _ _ _ _ _ F) as (c1 & c2 & F1 & A1 & F2).
    rewrite (current_start E _ _ F1). cbn [allowed] in A1. unfold refusal in A1.
    destruct (e_class E (Some s)); cbn [negb] in A1.
    2:{ destruct (user_code (c_phase c1)); discriminate. }
    destruct (next_of (c_phase c1)) as [n|] eqn:Nx; cbn [has orb] in A1.
    { right. exists n. eapply (next_transition E); eauto. }
    destruct (oeqb (c_state c1) (Some s)) eqn:Q; [|discriminate]. apply oeqb_true in Q. auto.
  - intros NF r R. rewrite R in Fi. rewrite <- N. destruct Fi as [->|[n W]]; auto.
    exfalso. exact (no_fail_no_wedge E _ _ _ F ltac:(discriminate) NF n W).
Qed.

(** C26: the observers called in a completed transition are those registered when the
    first of them is called, whatever observers do to the list meanwhile; changes made by
    on_exit or before count, changes made by observers count from the next transition. *)
Theorem C26_observers : forall M (E : env M) depth init p mem t1 n before o st nx after t2,
  trace (session E depth init p mem) = t1 ++ EStart n :: before ++ EObserve o st nx :: after ++ ECommit :: t2 ->
  ~ In ECommit before -> ~ In ECommit after -> observed before = [] ->
  Forall2 (fun a b => same_obs E a b = true) (registered [] (t1 ++ EStart n :: before)) (o :: observed after).
Proof.
  intros M E depth init p mem t1 n before o st nx after t2 T NB NA OB.
  destruct (session_ok E depth init p mem) as (c & F & _).
  rewrite T in F. change (EStart n :: before ++ EObserve o st nx :: after ++ ECommit :: t2)
    with ((EStart n :: before) ++ EObserve o st nx :: after ++ ECommit :: t2) in F.
  rewrite app_assoc in F. destruct (follow_split E _ _ _ _ _ F) as (c1 & c2 & F1 & A1 & F2).
  destruct (follow_split E _ _ _ _ _ F2) as (c3 & c4 & F3 & A3 & F4).
  pose proof (registered_follow E _ _ _ F1) as R1. cbn [start c_obs] in R1.
  destruct (allowed_observe E _ _ _ _ _ A1) as (n1 & o' & todo & H1 & H2 & H3 & H4 & H5 & ->).
  assert (G3 : exists x, going (c_phase c3) = Some x).
  { cbn [allowed] in A3. destruct (c_phase c3); cbn in A3 |- *; eauto; discriminate. }
  assert (NF : ~ In EFail after).
  { intros I. apply in_split in I. destruct I as (a & b & ->).
    destruct (follow_split E _ _ _ _ _ F3) as (d1 & d2 & _ & D2 & D3).
    assert (W : exists y, c_phase d2 = Wedged y).
    { cbn [allowed] in D2. destruct (c_phase d1); try discriminate; injection D2 as <-; cbn; eauto. }
    destruct W as (y & W). rewrite (wedged_not_going E _ _ _ _ W D3) in G3. destruct G3. discriminate. }
  destruct (pending_called E after (mkC (c_state c1) (c_obs c1) (InObs n1 todo)) c3 n1 todo eq_refl F3 NF NA) as (t' & l & X1 & X2 & X3).
  assert (t' = []) as ->.
  { cbn [allowed] in A3. unfold pending in A3. rewrite X1 in A3. cbn in A3. destruct t'; auto. discriminate. }
  rewrite app_nil_r in X2. subst l. rewrite <- R1.
  assert (P : pending c1 = c_obs c1).
  { (* no observer has been called yet, so the phase is not InObs *)
    unfold pending. destruct (c_phase c1) eqn:Ph; auto. exfalso.
    clear - F1 NB OB Ph. rewrite follow_app in F1. destruct (follow E start t1) as [a|] eqn:Fa; [|discriminate].
    cbn [follow] in F1. destruct (allowed E a (EStart n)) as [b|] eqn:A; [|discriminate].
    assert (Hb : forall x l, c_phase b <> InObs x l).
    { cbn [allowed] in A. destruct (c_phase a); try discriminate. destruct (refusal E a (Some n)); [discriminate|].
      injection A as <-. cbn. intros x l. destruct (has_exit E (c_state a)); discriminate. }
    clear A Fa. revert b F1 Hb. induction before as [|ev be IH]; intros b F1 Hb; cbn [follow] in F1.
    - injection F1 as <-. exact (Hb _ _ Ph).
    - destruct (allowed E b ev) as [b1|] eqn:A; [|discriminate]. eapply IH; eauto.
      + intros I. apply NB. right. exact I.
      + unfold observed in OB |- *. cbn [flat_map] in OB. apply app_eq_nil in OB. apply OB.
      + intros x l Q. destruct ev; try (destruct (allowed_user E _ _ _ A Logic.I) as (_ & P1 & _); rewrite P1 in Q; exact (Hb _ _ Q)).
        * cbn [allowed] in A. repeat match type of A with match ?x with _ => _ end = _ => destruct x; try discriminate A end.
          injection A as <-. cbn in Q. destruct (has_exit E (c_state b)); discriminate Q.
        * cbn [allowed] in A. repeat match type of A with match ?x with _ => _ end = _ => destruct x; try discriminate A end.
          injection A as <-. discriminate Q.
        * cbn in OB. discriminate OB.
        * cbn [allowed] in A. repeat match type of A with match ?x with _ => _ end = _ => destruct x; try discriminate A end; injection A as <-; discriminate Q.
        * apply NB. left. reflexivity.
        * cbn [allowed] in A. repeat match type of A with match ?x with _ => _ end = _ => destruct x; try discriminate A end; injection A as <-; discriminate Q. }
  rewrite <- P, H2. constructor; auto.
Qed.

(** A concrete session: state 1's on_exit registers observers 7 and 8; observer 7 empties
    the list, observer 8 tries an illegal transition; entering 2 moves on to 3. *)
Definition Edemo : env nat :=
  mkEnv (fun s => match s with Some s => s <? 50 | None => true end)
        (fun s => if s =? 1 then Some (WriteObs [7; 8] (Ret (Ok tt))) else None)
        (fun s => if s =? 2 then Some (Assign (Some 3) (fun r => Ret r)) else None)
        (fun o => if o =? 7 then WriteObs [] (Ret (Ok tt)) else Assign (Some 4) (fun _ => ReadNext (fun _ => Ret (Ok tt))))
        Nat.eqb.
Definition demo := session Edemo 9 (Some 1) (fun _ => Assign (Some 2) (fun r => Ret r)) 0.
Example demo_trace : trace demo =
  [EStart 1; ECommit;
   EStart 2; EExit 1 (Some 1) (Some 2); EWriteObs [7; 8];
   EObserve 7 (Some 1) (Some 2); EWriteObs [];
   EObserve 8 (Some 1) (Some 2); EReject (Some 4) TransitionError; EReadNext (Some 2);
   ECommit; EEnter 2 (Some 2) None; EStart 3; ECommit].
Proof. reflexivity. Qed.
Example demo_end : m_state (fst demo) = Some 3 /\ snd demo = Fin (Ok tt) /\
  registered [] [EStart 1; ECommit; EStart 2; EExit 1 (Some 1) (Some 2); EWriteObs [7; 8]] = [7; 8].
Proof. repeat split. Qed.
(* demo_trace meets the hypotheses of C23_transition_sequence and C24 (EStart 2 ... ECommit)
   and of C26_observers; the session of C25_refuted those of C25_failure_wedges_for_ever: *)
Example wedge_trace : trace (session E25 5 (Some 1) p25 tt) =
  [EStart 1; ECommit; EStart 2; EExit 1 (Some 1) (Some 2); EFail; EReject (Some 3) TransitionError].
Proof. reflexivity. Qed.

Print Assumptions C23_protocol.
Print Assumptions C23_transition_sequence.
Print Assumptions C24_illegal_assignment.
Print Assumptions C24_no_nested_transition.
Print Assumptions C25_failure_wedges_for_ever.
Print Assumptions C25_refuted.
Print Assumptions C25_partial.
Print Assumptions C26_observers.
