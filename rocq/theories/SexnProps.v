(** C116: the Scheduler when calls raise.  [ms] ranges over all interleavings of any number of threads, with an exception at any statement. *)
From Verif Require Import PyBase HeapModel SchedModel SchedSpec SchedProof SchedProof2 SexnModel SexnSpec SexnProof.

(** Every action in the history is one that [good] allows: events are yielded in order and never early, once each; cancel removes exactly a
    pending event; StopIteration, bool and queue are right; the lock is held and released as it should be. *)
Theorem C116_history_good (c0 : Z) (ms : list xmove) (l1 : list act) (a : act) (l2 : list act) :
  plain (snd (xsrun (xsinit c0) ms)) = l1 ++ a :: l2 -> good c0 l1 a.
Proof.
  intros E. pose proof (InvX_reach c0 ms _ (InvX_init raised_ok c0)) as I. rewrite (x_plain _ _ _ I) in E. exact (x_G _ _ _ I _ _ _ E).
Qed.
(** scheduled = queued + yielded + cancelled, without duplicates, whatever raised *)
Theorem C116_conservation (c0 : Z) (ms : list xmove) : let x := xsrun (xsinit c0) ms in let l := plain (snd x) in
  NoDup (scheduled l) /\
  Permutation (scheduled l) (heap_queue event_ltb (s_heap (fst x)) ++ yielded l ++ cancelled l) /\
  (forall e, In e (heap_queue event_ltb (s_heap (fst x))) <-> pending l e).
Proof.
  cbv zeta. pose proof (InvX_reach c0 ms _ (InvX_init raised_ok c0)) as I. set (x := xsrun (xsinit c0) ms) in *.
  rewrite (x_plain _ _ _ I). pose proof (x_D _ _ _ I) as D. destruct (HeapProof.heap_queue_spec event_ltb event_ltb_weak (s_heap (fst x))) as [P _].
  split; [apply seq_nodup, D|]. split.
  - rewrite P. apply D.
  - intros e. rewrite <- (pending_iff c0 (fst x) e D). split; apply Permutation_in; auto. symmetry; auto.
Qed.
(** The exception releases the lock, and ends the call; nobody else is affected. *)
Theorem C116_lock_released (c0 : Z) (ms : list xmove) (t : tid) : let x := xsrun (xsinit c0) ms in let x' := xsstep x (XRaise t) in
  s_lock (fst x') <> Some t /\ s_pc (fst x') t = Idle /\
  (s_lock (fst x) <> Some t -> s_lock (fst x') = s_lock (fst x)) /\
  s_heap (fst x') = s_heap (fst x) /\ forall u, u <> t -> s_pc (fst x') u = s_pc (fst x) u.
Proof.
  cbv zeta. pose proof (InvX_reach c0 ms _ (InvX_init raised_ok c0)) as I. set (x := xsrun (xsinit c0) ms) in *.
  destruct I as [[L1 L2] D _ _ _]. destruct x as [s l]. cbn [fst] in *. unfold xsstep.
  assert (Q : s_pc s t = Idle \/ s_pc s t <> Idle) by (destruct (s_pc s t); auto; right; discriminate).
  destruct Q as [Q|Q].
  - rewrite Q. cbn [fst]. repeat split; auto. intros K. apply L2 in K. rewrite Q in K. discriminate.
  - assert (E0 : xsstep (s, l) (XRaise t) = (raise_at s t, l ++ map XA (added s (raise_at s t)) ++ [XExn t])) by (unfold xsstep; destruct (s_pc s t); congruence).
    unfold xsstep in E0. rewrite E0. cbn [fst]. unfold raise_at. rewrite in_with_crit. destruct (crit (s_pc s t)) eqn:B.
    + cbn. unfold setpc. rewrite Nat.eqb_refl. repeat split; auto; try discriminate.
      * intros K. apply L2 in B. congruence.
      * intros u Hu. destruct (Nat.eqb_spec u t); congruence.
    + cbn. unfold setpc. rewrite Nat.eqb_refl. repeat split; auto.
      * intros K. apply L2 in K. congruence.
      * intros u Hu. destruct (Nat.eqb_spec u t); congruence.
Qed.
(** Whoever holds the lock, after any exceptions, is never stuck: at most six of its own steps later the lock is free. *)
Theorem C116_lock_holder_progresses (c0 : Z) (ms : list xmove) (t : tid) : let s := fst (xsrun (xsinit c0) ms) in
  s_lock s = Some t -> exists k, k <= 6 /\ s_lock (srun s (repeat (MStep t) k)) = None.
Proof.
  cbv zeta. intros H. pose proof (InvX_reach c0 ms _ (InvX_init raised_ok c0)) as I. apply lock_released with c0; try apply I; auto.
  destruct (s_pc (fst (xsrun (xsinit c0) ms)) t); cbn; lia.
Qed.
(** Each call of each thread returned what its effect says, or raised having had no effect or its full effect. *)
Theorem C116_calls (c0 : Z) (ms : list xmove) (t : tid) : let x := xsrun (xsinit c0) ms in
  s_pc (fst x) t = Idle -> xcalls_ok raised_ok t (xof_thread t (snd x)).
Proof. cbv zeta. intros E. apply (view_idle raised_ok (fst (xsrun (xsinit c0) ms))); auto. apply (InvX_reach c0 ms _ (InvX_init raised_ok c0)). Qed.
(** If only the regulator raises (now, sleep, wake, entering the lock), a next, bool or queue that raises has had no effect,
    and schedule and cancel have either had none, or have been done. *)
Theorem C116_regulator_raises (c0 : Z) (ms : list xmove) (t : tid) : let x := xsrun (xsinit c0) ms in
  only_regulator (xsinit c0) ms -> s_pc (fst x) t = Idle -> xcalls_ok raised_by_regulator t (xof_thread t (snd x)).
Proof.
  cbv zeta. intros O E. apply (view_idle raised_by_regulator (fst (xsrun (xsinit c0) ms))); auto.
  apply (InvX_reach_regulator c0 ms _ O (InvX_init raised_by_regulator c0)).
Qed.
(** so no event is lost: next() returns the payload of every event it takes out of the queue *)
Theorem C116_no_event_lost (c0 : Z) (ms : list xmove) (t : tid) : let x := xsrun (xsinit c0) ms in
  only_regulator (xsinit c0) ms -> s_pc (fst x) t = Idle ->
  payloads_returned (plain (xof_thread t (snd x))) = map e_obj (yielded (plain (xof_thread t (snd x)))).
Proof. cbv zeta. intros O E. apply (no_event_lost t). apply C116_regulator_raises; auto. Qed.

Definition xfull (t : tid) (c : call) : list xmove := map XMove (MCall t c :: repeat (MStep t) 10).
Definition xpart (t : tid) (c : call) (k : nat) : list xmove := map XMove (MCall t c :: repeat (MStep t) k) ++ [XRaise t].
(** With an asynchronous exception an event can be lost: next() has taken it from the queue, and raises instead of returning it. *)
Theorem C116_async_loses_event_refuted : exists (ms : list xmove) (e : event),
  let x := xsrun (xsinit 0) ms in
  s_pc (fst x) 0 = Idle /\ yielded (plain (snd x)) = [e] /\ payloads_returned (plain (snd x)) = [] /\ last (snd x) (XA (ATick 0)) = XExn 0 /\
  heap_queue event_ltb (s_heap (fst x)) = [].
Proof. exists (xfull 0 (CSchedule 70 0 false 100) ++ xpart 0 (CNext true) 5), (mkEvent 0 70 0 100 1). vm_compute. auto. Qed.
(** 'A call that raises has no effect' fails even if only wake() raises: the event is scheduled, but the caller has no Event object to cancel it with. *)
Theorem C116_schedule_raises_refuted : exists (ms : list xmove) (e : event),
  let x := xsrun (xsinit 0) ms in
  only_regulator (xsinit 0) ms /\ s_pc (fst x) 0 = Idle /\ last (snd x) (XA (ATick 0)) = XExn 0 /\ pending (plain (snd x)) e.
Proof.
  exists (xpart 0 (CSchedule 70 0 false 100) 4), (mkEvent 0 70 0 100 1). cbv zeta. split; [vm_compute; auto 20|].
  split; [vm_compute; auto|]. split; [vm_compute; auto|]. unfold pending. vm_compute. split; [left; reflexivity|]. split; intros [].
Qed.
(** An exception in the middle of wake() leaves the regulator's event set: a thread that has nothing to do does not block any more, but polls
    (until the next schedule or cancel). *)
Theorem C116_polling_refuted : exists (ms : list xmove) (dt : Z),
  let s := fst (xsrun (xsinit 0) ms) in
  s_lock s = None /\ s_flag s = true /\ s_pc s 1 = PSleep dt /\ (0 < dt)%Z /\
  s_pc (sstep s (MStep 1)) 1 = PNext0 true /\ s_pc (srun s (repeat (MStep 1) 8)) 1 = PSleep dt.
Proof. exists (xpart 0 (CSchedule 70 9 false 100) 5 ++ map XMove (MCall 1 (CNext true) :: repeat (MStep 1) 7)), 9%Z. vm_compute. auto 10. Qed.
(** A history with exceptions in which only the regulator raises: the sleep of thread 1 is interrupted, now() fails in thread 0, and then the event is returned. *)
Example C116_nonvacuous : let ms := xfull 0 (CSchedule 70 5 false 100) ++ xpart 1 (CNext true) 8 ++ [XMove (MTick 6)] ++ xpart 0 (CNext true) 2 ++ xfull 1 (CNext true) in
  only_regulator (xsinit 0) ms /\
  xof_thread 1 (snd (xsrun (xsinit 0) ms)) = [XA (ACall 1 (CNext true)); XA (ANow 1 0); XExn 1; XA (ACall 1 (CNext true)); XA (ANow 1 6); XA (AYield 1 (mkEvent 0 70 5 100 1)); XA (ARet 1 (RetObj 70))] /\
  xof_thread 0 (skipn 10 (snd (xsrun (xsinit 0) ms))) = [XA (ACall 0 (CNext true)); XExn 0].
Proof. cbv zeta. split; [vm_compute; auto 50|]. split; vm_compute; reflexivity. Qed.
Print Assumptions C116_history_good. Print Assumptions C116_conservation. Print Assumptions C116_lock_released. Print Assumptions C116_lock_holder_progresses. Print Assumptions C116_calls.
Print Assumptions C116_regulator_raises. Print Assumptions C116_no_event_lost. Print Assumptions C116_async_loses_event_refuted. Print Assumptions C116_schedule_raises_refuted. Print Assumptions C116_polling_refuted.
