(** Model of big/scheduler.py with any Regulator and any class of times: the Scheduler "doesn't actually understand time".
    (SchedModel.v models the threads of a ThreadSafeRegulator statement by statement, with integers as times.  Here the operations on times are
    parameters, now() returns anything, and sleep() may do anything and return whenever it likes.  A block under regulator.lock is one step: either
    the lock excludes other threads, or there is only one thread, and now() and wake() don't call the scheduler.  Nothing runs between the
    blocks that would touch the scheduler, so an execution of any number of threads, or of a sleep() that itself uses the scheduler, is a sequence of blocks.) *)
From Verif Require Export PyBase HeapModel.

(** The operations of the time class that the code uses: < and > on times (Event.__lt__, big/scheduler.py:201, 203), interval + now() (286), event.time - now() (346),
    and its comparison with 0 (348).  T: times and the intervals given to schedule; N: what now() returns; I: differences. *)
Record clockwork (T N I : Type) := mkClockwork {
  t_lt : T -> T -> bool; t_gt : T -> T -> bool; t_add : T -> N -> T; t_sub : T -> N -> I; i_le0 : I -> bool }.
Arguments t_lt {T N I}. Arguments t_gt {T N I}. Arguments t_add {T N I}. Arguments t_sub {T N I}. Arguments i_le0 {T N I}.

Section Sreg.
  Context {T N I P O : Type} (K : clockwork T N I) (p_lt p_gt : P -> P -> bool).

  (** big/scheduler.py:185-198 class Event.  Equality of objects is identity: the scheduler an event belongs to and its number there (which is v_sequence) say which object it is. *)
  Record event := mkEvent { v_owner : nat; v_object : O; v_time : T; v_priority : P; v_sequence : Z }.
  Definition same (a b : event) : bool := (v_owner a =? v_owner b)%nat && (v_sequence a =? v_sequence b)%Z.
  (** big/scheduler.py:200-214 Event.__lt__ *)
  Definition event_lt (a b : event) : bool :=
    if t_lt K (v_time a) (v_time b) then true
    else if t_gt K (v_time a) (v_time b) then false
    else if p_lt (v_priority a) (v_priority b) then true
    else if p_gt (v_priority a) (v_priority b) then false
    else if (v_sequence a <? v_sequence b)%Z then true
    else false.

  (** A block under the lock.  [who]: the call of next() it belongs to (its thread, say).  [now]: what now() returns this time. *)
  Inductive block :=
  | Schedule (o : O) (time : T) (relative_to : option N) (priority : P)      (* relative_to: None if absolute *)
  | Cancel (e : event)
  | Round (who : nat) (blocking : bool) (now : N)                             (* one round of the loop in _next; now is not used if the heap is empty *)
  | AskBool
  | AskQueue.
  (** what it does *)
  Inductive deed :=
  | Scheduled (e : event)                      (* and schedule returns e *)
  | Cancelled (e : event)
  | CancelRaises (e : event)                   (* ValueError *)
  | Yields (who : nat) (e : event) (now : N)   (* next returns e.event *)
  | Stops (who : nat) (now : option N)         (* StopIteration; None: now() was not called *)
  | Sleeps (who : nat) (now : N) (interval : I)   (* regulator.sleep(interval), and then another round *)
  | IsBool (b : bool)
  | IsQueue (l : list event).

  Record state := mkState { r_heap : heap event; r_counter : Z; r_log : list deed }.
  (** big/scheduler.py:262-265 *)
  Definition initial : state := mkState (mkHeap [] 0) 0 [].
  Definition did (s : state) (h : heap event) (d : deed) : state := mkState h (r_counter s) (r_log s ++ [d]).
  Definition step (s : state) (b : block) : state :=
    match b with
    | Schedule o time relative_to priority =>      (* big/scheduler.py:284-291 *)
        let time := match relative_to with None => time | Some now => t_add K time now end in
        let e := mkEvent 0 o time priority (r_counter s + 1) in
        mkState (fst (hstep event_lt same (r_heap s) (Append e))) (r_counter s + 1) (r_log s ++ [Scheduled e])
    | Cancel e =>                                  (* big/scheduler.py:300-302 *)
        match hstep event_lt same (r_heap s) (Remove e) with
        | (h, Ok _) => did s h (Cancelled e)
        | (h, Err _) => did s h (CancelRaises e)
        end
    | Round who blocking now =>                    (* big/scheduler.py:342-367 *)
        if heap_bool (r_heap s) then
          match heap_getitem event_lt (r_heap s) (IInt 0) with
          | Ok (One ev) =>
              let time_to_next_event := t_sub K (v_time ev) now in
              if i_le0 K time_to_next_event
              then did s (fst (hstep event_lt same (r_heap s) Popleft)) (Yields who ev now)
              else did s (r_heap s) (if blocking then Sleeps who now time_to_next_event else Stops who (Some now))
          | _ => s      (* does not occur: the heap is not empty *)
          end
        else did s (r_heap s) (Stops who None)
    | AskBool => did s (r_heap s) (IsBool (heap_bool (r_heap s)))                     (* big/scheduler.py:311-312 *)
    | AskQueue => did s (r_heap s) (IsQueue (heap_queue event_lt (r_heap s)))          (* big/scheduler.py:329-330 *)
    end.
  Definition run (bs : list block) : state := fold_left step bs initial.
End Sreg.
Arguments event : clear implicits.
Arguments block : clear implicits.
Arguments deed : clear implicits.
Arguments state : clear implicits.
