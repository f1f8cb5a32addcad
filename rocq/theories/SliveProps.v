(** C120: the Scheduler never gets stuck. *)
From Verif Require Import PyBase PyBaseProof HeapModel HeapProof SchedModel SchedSpec SchedProof SchedProof2 SchedProof3 SliveSpec SliveProof.
From Coq Require Import Lia.

Lemma InvC_tstep s t : InvC s -> InvC (tstep s t).
Proof.
  intros I. pose proof (I t) as It. unfold tstep, acquire, release. destruct (s_pc s t) eqn:E; auto;
  repeat match goal with |- context [match ?x with _ => _ end] => destruct x eqn:? end; auto;
  (eapply (InvC_gen s _ t _ I); [reflexivity|cbn; rewrite ?Nat.eqb_refl; auto|cbn; lia|intros u N; cbn; rewrite (setpc_other _ _ _ _ N); auto|]);
  cbn -[in_call]; rewrite setpc_same, ?app_nil_r, ?in_call_app, ?Nat.eqb_refl; auto;
  destruct (in_call t (s_log s)) as [c|] eqn:Ec; try congruence; destruct c; cbn in It |- *; try tauto; try congruence; auto.
Qed.
Lemma InvC_sstep s m : InvC s -> InvC (sstep s m).
Proof.
  intros I. destruct m as [t c|t|t|d]; cbn [sstep].
  - pose proof (I t) as It. destruct (s_pc s t) eqn:E; auto.
    eapply (InvC_gen s _ t [ACall t c] I); [reflexivity|cbn; rewrite ?Nat.eqb_refl; auto|cbn; lia|intros u N; cbn; rewrite (setpc_other _ _ _ _ N); auto|].
    cbn -[in_call]. rewrite setpc_same, in_call_app, Nat.eqb_refl. destruct c; cbn; auto.
  - now apply InvC_tstep.
  - pose proof (I t) as It. destruct (s_pc s t) eqn:E; auto.
    eapply (InvC_gen s _ t [] I); [reflexivity|reflexivity|cbn; lia|intros u N; cbn; rewrite (setpc_other _ _ _ _ N); auto|].
    cbn -[in_call]. rewrite setpc_same, app_nil_r. destruct (in_call t (s_log s)) as [c|]; [|congruence]. destruct c; cbn in *; auto.
  - destruct (0 <=? d)%Z; auto. intros t. cbn -[in_call]. rewrite in_call_app. apply I.
Qed.
Lemma InvC_at c0 sigma n : InvC (state_at c0 sigma n).
Proof. induction n; cbn; [intros t; reflexivity|now apply InvC_sstep]. Qed.
Lemma clock_at c0 sigma n : s_clock (state_at c0 sigma n) = clock_of c0 (history c0 sigma n).
Proof. apply (d_clock c0). apply st_D. Qed.
Lemma in_call_pc c0 sigma n t : in_call t (history c0 sigma n) <> None <-> s_pc (state_at c0 sigma n) t <> Idle.
Proof.
  pose proof (InvC_at c0 sigma n t) as H. unfold history. destruct (in_call t _) as [c|]; [|tauto]. split; [|discriminate]. intros _ X. rewrite X in H. destruct c; exact H.
Qed.
Lemma log_grows c0 sigma n m : n <= m -> exists l, history c0 sigma m = history c0 sigma n ++ l.
Proof.
  induction 1 as [|m L [l IH]]; [exists []; now rewrite app_nil_r|]. unfold history in *. cbn [state_at].
  assert (G : exists l', s_log (sstep (state_at c0 sigma m) (sigma m)) = s_log (state_at c0 sigma m) ++ l').
  { generalize (state_at c0 sigma m) as s. intros s. assert (X : exists l', s_log s = s_log s ++ l') by (exists []; now rewrite app_nil_r). destruct (sigma m) as [t c|t|t|d]; cbn [sstep].
    - destruct (s_pc s t); eauto; cbn; eauto.
    - unfold tstep, acquire, release. destruct (s_pc s t); repeat match goal with |- context [match ?x with _ => _ end] => destruct x end; eauto; cbn; eauto.
    - destruct (s_pc s t); eauto; cbn; eauto.
    - destruct (0 <=? d)%Z; eauto; cbn; eauto. }
  destruct G as [l' G]. rewrite G, IH. exists (l ++ l'). now rewrite app_assoc.
Qed.

(** Whenever some thread is inside a call, later some call returns: in every interleaving in which every thread gets to run and time goes on,
    whatever the threads call. *)
Theorem C120_progress c0 sigma n t : fair sigma -> time_goes_on c0 sigma -> in_call t (history c0 sigma n) <> None ->
  exists m l u r, n < m /\ history c0 sigma m = history c0 sigma n ++ l ++ [ARet u r].
Proof.
  intros F T H. apply in_call_pc in H. destruct (return_later c0 sigma F) with (n := n) (t := t) as (k & u & v & L & E); auto.
  - intros d. destruct (T d) as [k Hk]. exists k. now rewrite clock_at.
  - destruct (log_grows c0 sigma n k L) as [l G]. exists (S k), l, u, v. split; [lia|]. unfold history in *. rewrite E, G. now rewrite app_assoc.
Qed.
Print Assumptions C120_progress.

(** From some moment on threads only call next(scheduler), and there is again and again some thread in such a call: then every event pending at that moment is yielded. *)
Theorem C120_every_event_is_yielded c0 sigma n e : fair sigma -> time_goes_on c0 sigma ->
  (forall t c, in_call t (history c0 sigma n) = Some c -> c = CNext true) ->
  (forall k t c, n <= k -> sigma k = MCall t c -> c = CNext true) ->
  (forall k, exists m t, k <= m /\ in_call t (history c0 sigma m) <> None) ->
  pending (history c0 sigma n) e -> exists m, n <= m /\ In e (yielded (history c0 sigma m)).
Proof.
  intros F T H1 H2 H3 P. eapply (events_yielded c0 sigma F); eauto.
  - intros d. destruct (T d) as [k Hk]. exists k. now rewrite clock_at.
  - intros t. pose proof (InvC_at c0 sigma n t) as I. unfold history in H1. destruct (in_call t (s_log (state_at c0 sigma n))) as [c|] eqn:Ec.
    + rewrite (H1 t c Ec) in I. cbn in I. destruct (s_pc (state_at c0 sigma n) t); try tauto; subst; reflexivity.
    + now rewrite I.
  - intros k. destruct (H3 k) as (m & t & L & X). exists m, t. split; auto. now apply in_call_pc in X.
Qed.
Print Assumptions C120_every_event_is_yielded.

(** The calls of one particular thread need not return, for threading.Lock does not queue the threads that wait for it: thread 0 calls bool(scheduler) again and again, and each time
    thread 1, in next(scheduler), tries to take the lock, thread 0 has it. *)
Definition visit (q : nat) : nat := q - Nat.sqrt q * Nat.sqrt q.
Lemma visit_all v n : exists q, n <= q /\ visit q = v.
Proof.
  exists ((v + n) * (v + n) + v). assert (E : Nat.sqrt ((v + n) * (v + n) + v) = v + n) by (apply Nat.sqrt_unique; nia). split; [nia|]. unfold visit. rewrite E. lia.
Qed.
Definition unlucky_start : list move := MCall 0 (CSchedule 70 5 true 100) :: repeat (MStep 0) 9 ++ [MTick 5; MCall 1 (CNext true)].
Definition unlucky_round (q r : nat) : move :=
  match r with 0 => MCall 0 CBool | 1 => MStep 0 | 2 => MStep 1 | 3 => MStep 0 | 4 => MStep 0 | 5 => MStep 0 | 6 => MStep (2 + visit q) | _ => MTick 1 end.
Definition unlucky (n : nat) : move :=
  match nth_error unlucky_start n with Some m => m | None => let j := n - length unlucky_start in unlucky_round (j / 8) (j mod 8) end.
Definition the_event : event := mkEvent 0 70 5 100 1.
Definition stuck (r : nat) (k : Z) (s : sstate) : Prop :=
  s_pc s 1 = PNext0 true /\ (forall t, 2 <= t -> s_pc s t = Idle) /\ in_call 1 (s_log s) = Some (CNext true) /\
  scheduled (s_log s) = [the_event] /\ yielded (s_log s) = [] /\ cancelled (s_log s) = [] /\ (k <= s_clock s)%Z /\
  match r with
  | 0 | 6 | 7 => s_lock s = None /\ s_pc s 0 = Idle
  | 1 => s_lock s = None /\ s_pc s 0 = PBool0
  | 2 | 3 => s_lock s = Some 0 /\ s_pc s 0 = PBool1
  | 4 => s_lock s = Some 0 /\ exists b, s_pc s 0 = PBool2 b
  | _ => s_lock s = None /\ exists b, s_pc s 0 = PBool3 b
  end.
Lemma stuck_round q r k s : r < 8 -> stuck r k s -> stuck ((r + 1) mod 8) (if r =? 7 then k + 1 else k) (sstep s (unlucky_round q r)).
Proof.
  intros R (P1 & P2 & IC & Sc & Y & Cn & Ck & Q).
  assert (Go : forall l p acts, (forall t, 2 <= t -> setpc (s_pc s) 0 p t = Idle) /\ (setpc (s_pc s) 0 p 1 = PNext0 true) /\ (setpc (s_pc s) 0 p 0 = p) /\
    (forallb (mine 0) acts = true -> length acts <= 1 -> in_call 1 (s_log s ++ acts) = Some (CNext true)) /\ (l = l :> nat)).
  { intros l p acts. split; [intros t Ht; rewrite setpc_other by lia; auto|]. split; [now rewrite setpc_other by lia|]. split; [apply setpc_same|]. split; [|auto]. intros M L. rewrite (in_call_mine 0 1 acts); auto. }
  destruct r as [|[|[|[|[|[|[|[|r]]]]]]]]; [| | | | | | | |lia]; cbn [unlucky_round sstep Nat.eqb].
  - destruct Q as [Q1 Q2]. rewrite Q2. destruct (Go 0 PBool0 [ACall 0 CBool]) as (G1 & G2 & G3 & G4 & _). unfold stuck. cbn -[in_call setpc Nat.modulo scheduled yielded cancelled]. change ((0 + 1) mod 8) with 1. cbn -[in_call setpc scheduled yielded cancelled].
    rewrite G2, G3, G4, scheduled_app, yielded_app, cancelled_app, Sc, Y, Cn by (cbn; auto). repeat split; auto.
  - destruct Q as [Q1 Q2]. unfold tstep. rewrite Q2. unfold acquire. rewrite Q1. destruct (Go 0 PBool1 [AAcq 0]) as (G1 & G2 & G3 & G4 & _). unfold stuck. change ((1 + 1) mod 8) with 2. cbn -[in_call setpc scheduled yielded cancelled].
    rewrite G2, G3, G4, scheduled_app, yielded_app, cancelled_app, Sc, Y, Cn by (cbn; auto). repeat split; auto.
  - destruct Q as [Q1 Q2]. unfold tstep. rewrite P1. unfold acquire. rewrite Q1. unfold stuck. change ((2 + 1) mod 8) with 3. cbn -[in_call setpc scheduled yielded cancelled]. repeat split; auto.
  - destruct Q as [Q1 Q2]. unfold tstep. rewrite Q2. destruct (Go 0 (PBool2 (heap_bool (s_heap s))) [ABool 0 (heap_bool (s_heap s))]) as (G1 & G2 & G3 & G4 & _). unfold stuck. change ((3 + 1) mod 8) with 4. cbn -[in_call setpc heap_bool scheduled yielded cancelled].
    rewrite G2, G3, G4, scheduled_app, yielded_app, cancelled_app, Sc, Y, Cn by (cbn; auto). repeat split; eauto.
  - destruct Q as [Q1 [b Q2]]. unfold tstep. rewrite Q2. destruct (Go 0 (PBool3 b) [ARel 0]) as (G1 & G2 & G3 & G4 & _). unfold stuck, release. change ((4 + 1) mod 8) with 5. cbn -[in_call setpc scheduled yielded cancelled].
    rewrite G2, G3, G4, scheduled_app, yielded_app, cancelled_app, Sc, Y, Cn by (cbn; auto). repeat split; eauto.
  - destruct Q as [Q1 [b Q2]]. unfold tstep. rewrite Q2. destruct (Go 0 Idle [ARet 0 (RetBool b)]) as (G1 & G2 & G3 & G4 & _). unfold stuck. change ((5 + 1) mod 8) with 6. cbn -[in_call setpc scheduled yielded cancelled].
    rewrite G2, G3, G4, scheduled_app, yielded_app, cancelled_app, Sc, Y, Cn by (cbn; auto). repeat split; eauto.
  - unfold tstep. rewrite P2 by lia. unfold stuck. change ((6 + 1) mod 8) with 7. repeat split; auto; apply Q.
  - unfold stuck. change ((7 + 1) mod 8) with 0. change (0 <=? 1)%Z with true. cbn -[in_call setpc scheduled yielded cancelled]. rewrite in_call_app, scheduled_app, yielded_app, cancelled_app, Sc, Y, Cn. repeat split; auto; try apply Q. lia.
Qed.
Lemma unlucky_late j : unlucky (length unlucky_start + j) = unlucky_round (j / 8) (j mod 8).
Proof. unfold unlucky. rewrite (proj2 (nth_error_None _ _)) by lia. now replace (length unlucky_start + j - length unlucky_start) with j by lia. Qed.
Lemma unlucky_stuck j : stuck (j mod 8) (5 + Z.of_nat (j / 8)) (state_at 0 unlucky (length unlucky_start + j)).
Proof.
  induction j as [|j IH].
  - rewrite Nat.add_0_r. vm_compute state_at. unfold stuck. cbn. split; auto. split; [intros [|[|t]] Ht; try lia; auto|]. repeat split; auto; lia.
  - rewrite Nat.add_succ_r. cbn [state_at]. rewrite unlucky_late. pose proof (stuck_round (j / 8) (j mod 8) _ _ (Nat.mod_upper_bound j 8 ltac:(lia)) IH) as H.
    pose proof (Nat.div_mod j 8 ltac:(lia)) as DM. pose proof (Nat.mod_upper_bound j 8 ltac:(lia)) as B.
    assert (E : S j mod 8 = (j mod 8 + 1) mod 8) by (rewrite <- Nat.add_1_r, Nat.add_mod by lia; reflexivity).
    rewrite E. destruct (Nat.eqb_spec (j mod 8) 7) as [X|X].
    + replace (5 + Z.of_nat (S j / 8))%Z with (5 + Z.of_nat (j / 8) + 1)%Z; auto. assert (S j / 8 = S (j / 8)); [|lia]. symmetry. apply (Nat.div_unique _ _ _ 0); lia.
    + replace (S j / 8) with (j / 8); auto. apply (Nat.div_unique _ _ _ (j mod 8 + 1)); lia.
Qed.
Theorem C120_starvation_refuted : exists sigma e, fair sigma /\ time_goes_on 0 sigma /\ exists N, forall n, N <= n ->
  in_call 1 (history 0 sigma n) = Some (CNext true) /\ pending (history 0 sigma n) e /\ (e_time e <= clock_of 0 (history 0 sigma n))%Z.
Proof.
  exists unlucky, the_event. split; [|split].
  - intros t n. assert (X : exists q r, n <= q /\ r < 8 /\ unlucky_round q r = MStep t).
    { destruct t as [|[|t]]; [exists n, 1; auto with arith; repeat split; lia|exists n, 2; repeat split; lia|]. destruct (visit_all t n) as (q & Lq & V). exists q, 6. split; auto. split; [lia|]. cbn. now rewrite V. }
    destruct X as (q & r & Lq & Lr & E). exists (length unlucky_start + (8 * q + r)). split; [lia|]. rewrite unlucky_late.
    replace ((8 * q + r) / 8) with q by (apply (Nat.div_unique _ _ _ r); lia). replace ((8 * q + r) mod 8) with r by (apply (Nat.mod_unique _ _ q); lia). exact E.
  - intros T. pose proof (unlucky_stuck (8 * Z.to_nat T)) as (_ & _ & _ & _ & _ & _ & C & _). exists (length unlucky_start + 8 * Z.to_nat T). rewrite clock_at in C.
    replace (8 * Z.to_nat T / 8) with (Z.to_nat T) in C by (apply (Nat.div_unique _ _ _ 0); lia). lia.
  - exists (length unlucky_start). intros n Hn. replace n with (length unlucky_start + (n - length unlucky_start)) by lia.
    destruct (unlucky_stuck (n - length unlucky_start)) as (_ & _ & IC & Sc & Y & Cn & C & _). rewrite clock_at in C. unfold history in *. split; auto. split; [unfold pending; rewrite Sc, Y, Cn; cbn; tauto|]. change (e_time the_event) with 5%Z. lia.
Qed.
Print Assumptions C120_starvation_refuted.

(** An execution that meets the hypotheses of C120_every_event_is_yielded: thread 0 has scheduled an event, thread 1 calls next() again and again. *)
Definition lucky_start : list move := MCall 0 (CSchedule 70 5 true 100) :: repeat (MStep 0) 9.
Definition lucky (n : nat) : move :=
  match nth_error lucky_start n with Some m => m | None => let j := n - 10 in
    match j mod 3 with 0 => MCall 1 (CNext true) | 1 => MStep (visit (j / 3)) | _ => MTick 1 end end.
Lemma lucky_late j : lucky (10 + j) = match j mod 3 with 0 => MCall 1 (CNext true) | 1 => MStep (visit (j / 3)) | _ => MTick 1 end.
Proof. unfold lucky. rewrite (proj2 (nth_error_None _ _)) by (cbn; lia). now replace (10 + j - 10) with j by lia. Qed.
Lemma clock_mono c0 sigma n m : n <= m -> (s_clock (state_at c0 sigma n) <= s_clock (state_at c0 sigma m))%Z.
Proof. induction 1; cbn [state_at]; [lia|]. pose proof (step_clock (state_at c0 sigma m) (sigma m)). lia. Qed.
Example C120_witness : fair lucky /\ time_goes_on 0 lucky /\
  (forall t c, in_call t (history 0 lucky 10) = Some c -> c = CNext true) /\ (forall k t c, 10 <= k -> lucky k = MCall t c -> c = CNext true) /\
  (forall k, exists m t, k <= m /\ in_call t (history 0 lucky m) <> None) /\ pending (history 0 lucky 10) the_event.
Proof.
  assert (M : forall q r, r < 3 -> lucky (10 + (3 * q + r)) = match r with 0 => MCall 1 (CNext true) | 1 => MStep (visit q) | _ => MTick 1 end).
  { intros q r R. rewrite lucky_late. replace ((3 * q + r) / 3) with q by (apply (Nat.div_unique _ _ _ r); lia). replace ((3 * q + r) mod 3) with r by (apply (Nat.mod_unique _ _ q); lia). auto. }
  split; [|split; [|split; [|split; [|split]]]].
  - intros t n. destruct (visit_all t n) as (q & L & V). exists (10 + (3 * q + 1)). split; [lia|]. rewrite M by lia. now rewrite V.
  - assert (C : forall q, (Z.of_nat q <= s_clock (state_at 0 lucky (10 + 3 * q)))%Z).
    { induction q as [|q IH]; [vm_compute; discriminate|]. replace (10 + 3 * S q) with (S (10 + (3 * q + 2))) by lia. cbn [state_at]. rewrite M by lia.
      pose proof (clock_mono 0 lucky (10 + 3 * q) (10 + (3 * q + 2)) ltac:(lia)). cbn [sstep]. change (0 <=? 1)%Z with true. cbn [s_clock]. lia. }
    intros T. exists (10 + 3 * Z.to_nat T). rewrite <- clock_at. specialize (C (Z.to_nat T)). lia.
  - intros t c H. exfalso. assert (X : s_pc (state_at 0 lucky 10) t = Idle) by (vm_compute; destruct t; reflexivity). apply (proj1 (in_call_pc 0 lucky 10 t)); auto. congruence.
  - intros k t c L E. replace k with (10 + (k - 10)) in E by lia. rewrite lucky_late in E. destruct ((k - 10) mod 3) as [|[|r]]; congruence.
  - intros k. exists (S (10 + (3 * k + 0))), 1. split; [lia|]. apply in_call_pc. cbn [state_at]. rewrite M by lia. cbn [sstep]. destruct (s_pc (state_at 0 lucky (10 + (3 * k + 0))) 1) eqn:E; rewrite ?E; discriminate.
  - vm_compute. repeat split; auto; intros [].
Qed.
