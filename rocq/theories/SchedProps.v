(** Property theorems for big.scheduler (C06-C12).  [ms] ranges over all interleavings
    of any number of threads, [c0] is the clock's initial value. *)
From Verif Require Import PyBase HeapModel SchedModel SchedSpec SchedProof SchedProof2 SchedProof3.

(** C06: a yielded event is pending and comes before every other pending event. *)
Theorem C06_yield_in_order :
  forall (c0 : Z) (ms : list move) (l1 : list act) (t : tid) (e : event) (l2 : list act),
  s_log (srun (sinit c0) ms) = l1 ++ AYield t e :: l2 ->
  pending l1 e /\ forall e', pending l1 e' -> e' <> e -> comes_first l1 e e'.
Proof. exact sched_yield_order. Qed.
Print Assumptions C06_yield_in_order.

(** C06/C08/C09: the calls of each thread return what their effect says: e.g. next()
    returns the payload of exactly the one event it yielded; schedule() returns the
    event it scheduled, with the requested payload, priority and time. *)
Theorem C06_calls_return_their_effect :
  forall (c0 : Z) (ms : list move) (t : tid),
  s_pc (srun (sinit c0) ms) t = Idle ->
  calls_ok t (of_thread t (s_log (srun (sinit c0) ms))).
Proof. exact sched_calls. Qed.
Print Assumptions C06_calls_return_their_effect.

(** C07: no event is yielded before its time; now() is the clock. *)
Theorem C07_never_early :
  forall (c0 : Z) (ms : list move) (l1 : list act) (t : tid) (e : event) (l2 : list act),
  s_log (srun (sinit c0) ms) = l1 ++ AYield t e :: l2 -> (e_time e <= clock_of c0 l1)%Z.
Proof. exact sched_not_early. Qed.
Print Assumptions C07_never_early.

(** C08: scheduled = queued + yielded + cancelled, without duplicates; the queue is the
    set of pending events. *)
Theorem C08_conservation :
  forall (c0 : Z) (ms : list move), let s := srun (sinit c0) ms in
  NoDup (scheduled (s_log s)) /\
  Permutation (scheduled (s_log s)) (heap_queue event_ltb (s_heap s) ++ yielded (s_log s) ++ cancelled (s_log s)) /\
  (forall e, In e (heap_queue event_ltb (s_heap s)) <-> pending (s_log s) e).
Proof. exact sched_conservation. Qed.
Print Assumptions C08_conservation.

(** C09: cancel succeeds exactly on pending events and removes exactly that event. *)
Theorem C09_cancel_exact :
  forall (c0 : Z) (ms : list move) (l1 : list act) (t : tid) (e : event) (l2 : list act),
  (s_log (srun (sinit c0) ms) = l1 ++ ACancel t e :: l2 ->
     pending l1 e /\ forall e', pending (l1 ++ [ACancel t e]) e' <-> pending l1 e' /\ e' <> e) /\
  (s_log (srun (sinit c0) ms) = l1 ++ ACancelFail t e :: l2 ->
     ~ pending l1 e /\ forall e', pending (l1 ++ [ACancelFail t e]) e' <-> pending l1 e').
Proof. exact sched_cancel. Qed.
Print Assumptions C09_cancel_exact.

(** a concrete two-thread history: thread 0 schedules three events and cancels one,
    thread 1 takes the others, out of insertion order *)
Definition demo_full (t : tid) (c : call) : list move := MCall t c :: repeat (MStep t) 10.
Definition demo : list move :=
  demo_full 0 (CSchedule 70 5 true 100) ++ demo_full 0 (CSchedule 71 5 true 50) ++
  demo_full 0 (CSchedule 72 2 false 100) ++
  demo_full 0 (CCancel (mkEvent 0 72 2 100 3)) ++ demo_full 0 (CCancel (mkEvent 0 72 2 100 3)) ++
  [MTick 6] ++ demo_full 1 (CNext true) ++ demo_full 1 (CNext false) ++ demo_full 1 (CNext false).
Example C06_nonvacuous :
  of_thread 1 (s_log (srun (sinit 0) demo)) =
  [ACall 1 (CNext true); ANow 1 6; AYield 1 (mkEvent 0 71 5 50 2); ARet 1 (RetObj 71);
   ACall 1 (CNext false); ANow 1 6; AYield 1 (mkEvent 0 70 5 100 1); ARet 1 (RetObj 70);
   ACall 1 (CNext false); AEmpty 1; ARet 1 RetStop]
  /\ cancelled (s_log (srun (sinit 0) demo)) = [mkEvent 0 72 2 100 3]
  /\ In (ACancelFail 0 (mkEvent 0 72 2 100 3)) (s_log (srun (sinit 0) demo)).
Proof. vm_compute. repeat split. repeat (try (left; reflexivity); right). Qed.

(** C10: draining non_blocking() with the clock standing still. *)
Theorem C10_non_blocking_drain :
  forall (c0 : Z) (ms0 : list move) (t : tid) (ms : list move) (l : list act),
  let s0 := srun (sinit c0) ms0 in
  let s := srun s0 ms in
  s_pc s0 t = Idle -> Forall (drain_move t) ms -> s_pc s t = Idle ->
  s_log s = s_log s0 ++ l ++ [ARet t RetStop] ->
  (forall e, In e (yielded l) <-> pending (s_log s0) e /\ (e_time e <= s_clock s0)%Z) /\
  StronglySorted (comes_first (s_log s0)) (yielded l) /\
  (forall e, pending (s_log s) e <-> pending (s_log s0) e /\ (s_clock s0 < e_time e)%Z) /\
  (forall u d, ~ In (ASleep u d) l).
Proof. exact non_blocking_drain. Qed.
Print Assumptions C10_non_blocking_drain.
(** C10: and it always terminates (when the lock is free). *)
Theorem C10_non_blocking_terminates :
  forall (c0 : Z) (ms0 : list move) (t : tid), let s := srun (sinit c0) ms0 in
  s_pc s t = Idle -> s_lock s = None ->
  exists ms, Forall (drain_move t) ms /\ s_pc (srun s ms) t = Idle /\ s_lock (srun s ms) = None /\
  exists l, s_log (srun s ms) = l ++ [ARet t RetStop].
Proof. exact drain_terminates_reach. Qed.
Print Assumptions C10_non_blocking_terminates.
Example C10_nonvacuous :
  let s0 := srun (sinit 0) (demo_full 0 (CSchedule 70 5 true 100) ++ demo_full 0 (CSchedule 71 3 true 100) ++
                            demo_full 0 (CSchedule 72 9 true 100) ++ [MTick 6]) in
  let s := srun s0 (demo_full 1 (CNext false) ++ demo_full 1 (CNext false) ++ demo_full 1 (CNext false)) in
  map e_obj (yielded (s_log s)) = [71; 70]%Z /\ last (s_log s) (ATick 0) = ARet 1 RetStop.
Proof. vm_compute. auto. Qed.

(** C11, the half that holds: a thread blocked inside sleep() is woken by every
    schedule()/cancel() of another thread that begins after it blocked and returns
    successfully; its next step re-examines the queue.  Missing: a thread that has
    released the lock but not yet entered sleep() (next theorem). *)
Theorem C11_blocked_thread_is_woken_partial :
  forall (s0 : sstate) (t u : tid) (d : Z) (ms : list move) (l : list act),
  t <> u -> s_pc s0 u = PWait d false -> s_pc s0 t = Idle -> Forall (not_by u) ms ->
  let s := srun s0 ms in
  s_log s = s_log s0 ++ l ->
  (exists e, In (ARet t (RetEvent e)) l) \/ In (ARet t RetNone) l ->
  s_pc s u = PWait d true /\ s_pc (sstep s (MStep u)) u = PNext0 true.
Proof. exact blocked_is_woken. Qed.
Print Assumptions C11_blocked_thread_is_woken_partial.

(** thread 1 blocks on an event due at 100 ... *)
Definition blocked_prefix : list move :=
  demo_full 0 (CSchedule 70 100 true 100) ++ MCall 1 (CNext true) :: repeat (MStep 1) 8.
Example C11_nonvacuous :
  let s0 := srun (sinit 0) blocked_prefix in
  let s := srun s0 (demo_full 0 (CSchedule 71 1 true 100)) in
  s_pc s0 1 = PWait 100 false /\ s_pc s0 0 = Idle /\ s_pc s 1 = PWait 100 true /\
  exists e, In (ARet 0 (RetEvent e)) (s_log s).
Proof. vm_compute. repeat split. exists (mkEvent 0 70 100 100 1). repeat (try (left; reflexivity); right). Qed.

(** C11 as stated is false of the code: thread 1 has released the lock and is about to
    enter event.wait when thread 0 schedules an event due at 1 and calls wake()
    (set, then clear at once); thread 1 then sleeps to the old deadline 100 although an
    event has been due since 1, every other thread is idle, and only the passage of
    time to 100 (or another schedule/cancel) lets it move. *)
Theorem C11_lost_wakeup_refuted :
  exists (ms : list move) (u : tid) (d : Z) (e : event), let s := srun (sinit 0) ms in
  (forall t, t <> u -> s_pc s t = Idle) /\ s_pc s u = PWait d false /\
  pending (s_log s) e /\ (e_time e < s_clock s < d)%Z /\ sstep s (MStep u) = s.
Proof.
  exists (demo_full 0 (CSchedule 70 100 true 100) ++ (MCall 1 (CNext true) :: repeat (MStep 1) 7) ++
          demo_full 0 (CSchedule 71 1 true 100) ++ [MStep 1; MTick 50]), 1, 100%Z, (mkEvent 0 71 1 100 2).
  cbv zeta. split; [|split; [|split; [|split]]].
  - intros [|[|t]] Ht; [reflexivity | congruence | reflexivity].
  - vm_compute. reflexivity.
  - unfold pending. vm_compute. split; [right; left; reflexivity|]. split; intros [].
  - vm_compute. split; reflexivity.
  - vm_compute. reflexivity.
Qed.
Print Assumptions C11_lost_wakeup_refuted.

(** C11: with nobody inside schedule()/cancel() (the lock is free), a thread that has decided to
    sleep does block, until the deadline and no longer; no busy waiting. *)
Theorem C11_sleep_blocks :
  forall (c0 : Z) (ms : list move) (t : tid), let s := srun (sinit c0) ms in
  (s_lock s = None -> forall dt, s_pc s t = PSleep dt -> s_pc (sstep s (MStep t)) t = PWait (s_clock s + dt) false) /\
  (forall d, s_pc s t = PWait d false -> (sstep s (MStep t) = s <-> (s_clock s < d)%Z)) /\
  (forall d, s_pc s t = PWait d false -> (d <= s_clock s)%Z -> s_pc (sstep s (MStep t)) t = PNext0 true).
Proof.
  intros c0 ms t s. split; [|split].
  - intros L dt P. cbn [sstep]. unfold tstep. rewrite P. pose proof (flag_free c0 ms L) as F. fold s in F. rewrite F. apply go_pc.
  - intros d P. cbn [sstep]. unfold tstep. rewrite P. cbn [orb]. destruct (d <=? s_clock s)%Z eqn:E.
    + split; [|lia]. intros X. apply (f_equal (fun s => s_pc s t)) in X. rewrite go_pc, P in X. discriminate.
    + split; auto. intros _. lia.
  - intros d P L. cbn [sstep]. unfold tstep. rewrite P. apply Z.leb_le in L. rewrite L. apply go_pc.
Qed.
Print Assumptions C11_sleep_blocks.
(** The wake-up event is set exactly while some thread is inside wake() (so a thread that reaches
    wait() at that moment does not block). *)
Theorem C11_wake_flag :
  forall (c0 : Z) (ms : list move), let s := srun (sinit c0) ms in
  s_flag s = true <-> exists t, (exists e, s_pc s t = PSched4b e) \/ s_pc s t = PCan2b.
Proof.
  intros c0 ms s. unfold s. rewrite (flag_reach c0 ms). split; intros [t H]; exists t.
  - destruct (s_pc (srun (sinit c0) ms) t); try discriminate; [left; eauto|auto].
  - destruct H as [[e H]|H]; rewrite H; reflexivity.
Qed.
Print Assumptions C11_wake_flag.
(** A blocked thread that may wake (woken, or its deadline has come), with the lock free and an
    event pending and due, returns within 8 of its own steps, with an event that is due. *)
Theorem C11_due_event_is_returned :
  forall (c0 : Z) (ms : list move) (t : tid) (d : Z) (woken : bool) (e : event), let s := srun (sinit c0) ms in
  s_lock s = None -> s_pc s t = PWait d woken -> woken = true \/ (d <= s_clock s)%Z ->
  pending (s_log s) e -> (e_time e <= s_clock s)%Z ->
  exists e' l, let s' := srun s (repeat (MStep t) 8) in s_pc s' t = Idle /\ s_lock s' = None /\
    s_log s' = s_log s ++ l ++ [ARet t (RetObj (e_obj e'))] /\ yielded l = [e'] /\ pending (s_log s) e' /\ (e_time e' <= s_clock s)%Z.
Proof. intros c0 ms t d w e s L P W Pe Te. eapply due_returned; eauto. apply Inv_reach. Qed.
Print Assumptions C11_due_event_is_returned.
Example C11_due_nonvacuous :
  let s := srun (srun (sinit 0) blocked_prefix) [MTick 100] in
  s_lock s = None /\ s_pc s 1 = PWait 100 false /\ s_clock s = 100%Z /\ last (s_log (srun s (repeat (MStep 1) 8))) (ATick 0) = ARet 1 (RetObj 70).
Proof. vm_compute. auto. Qed.

(** C12: lock discipline, at every point of every interleaving. *)
Theorem C12_lock_discipline :
  forall (c0 : Z) (ms : list move) (l1 : list act) (a : act) (l2 : list act),
  s_log (srun (sinit c0) ms) = l1 ++ a :: l2 -> lock_rule l1 a.
Proof. exact sched_lock_rule. Qed.
Print Assumptions C12_lock_discipline.
(** C12: the lock holder is never stuck (in particular never waits for the lock itself):
    at most six of its own steps later the lock is free. *)
Theorem C12_lock_is_released :
  forall (c0 : Z) (ms : list move) (t : tid), let s := srun (sinit c0) ms in
  s_lock s = Some t -> exists k, k <= 6 /\ s_lock (srun s (repeat (MStep t) k)) = None.
Proof. exact lock_released_reach. Qed.
Print Assumptions C12_lock_is_released.
Example C12_nonvacuous :
  s_lock (srun (sinit 0) (demo_full 0 (CSchedule 70 100 true 100) ++ MCall 1 (CNext true) :: repeat (MStep 1) 3)) = Some 1.
Proof. vm_compute. reflexivity. Qed.

(** C08/C10: what bool(scheduler), scheduler.queue and the end of an iteration report, at the
    moment they look (holding the lock): bool is whether some event is pending; queue lists each
    pending event once, in the order they would be yielded; iteration ends only when no event is
    pending or - non_blocking() only - when every pending event is later than the time just read. *)
Theorem C08_queue_and_bool :
  forall (c0 : Z) (ms : list move) (l1 : list act) (t : tid) (l2 : list act),
  (forall b, s_log (srun (sinit c0) ms) = l1 ++ ABool t b :: l2 -> (b = true <-> exists e, pending l1 e)) /\
  (forall q, s_log (srun (sinit c0) ms) = l1 ++ AQueue t q :: l2 ->
     NoDup q /\ (forall e, In e q <-> pending l1 e) /\ StronglySorted (comes_first l1) q).
Proof.
  intros c0 ms l1 t l2. split; [intros b H | intros q H]; apply sched_log_ok in H; cbn in H; destruct H as (_ & H); auto.
Qed.
Print Assumptions C08_queue_and_bool.
Theorem C10_stop_iteration :
  forall (c0 : Z) (ms : list move) (l1 : list act) (t : tid) (l2 : list act),
  (s_log (srun (sinit c0) ms) = l1 ++ AEmpty t :: l2 -> forall e, ~ pending l1 e) /\
  (s_log (srun (sinit c0) ms) = l1 ++ ANotDue t :: l2 ->
     (exists e, pending l1 e) /\ exists n, time_read t l1 = Some n /\ forall e, pending l1 e -> (n < e_time e)%Z).
Proof.
  intros c0 ms l1 t l2. split; intros H; apply sched_log_ok in H; cbn in H; destruct H as (_ & H); auto.
Qed.
Print Assumptions C10_stop_iteration.
Example C08_queue_nonvacuous :
  let l := s_log (srun (sinit 0) (demo_full 0 (CSchedule 70 5 true 100) ++ demo_full 0 (CSchedule 71 3 true 100) ++
                            demo_full 0 CQueue ++ demo_full 1 CBool ++ demo_full 1 (CNext false))) in
  In (AQueue 0 [mkEvent 0 71 3 100 2; mkEvent 0 70 5 100 1]) l /\ In (ABool 1 true) l /\ In (ANotDue 1) l.
Proof. vm_compute. repeat split; repeat (try (left; reflexivity); right). Qed.
