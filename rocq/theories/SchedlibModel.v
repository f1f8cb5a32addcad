(** Python's sched.scheduler (CPython's Lib/sched.py), which the Scheduler of big/scheduler.py:225 is "a replacement for" (C134), and a program that uses one or the other.
    The program is anything: at every point where its code runs (its main part, an action, the delay function) what it does next, and what its clock says,
    is a function of everything it has observed so far.  One thread. *)
From Verif Require Export SregSpec.

(** what a program observes of one event: its number says how many events were entered before it (sched's Event.sequence; big's Event.sequence is one more) *)
Record item (T P O : Type) := mkItem { i_time : T; i_priority : P; i_number : Z; i_action : O }.
Arguments mkItem {T P O}. Arguments i_time {T P O}. Arguments i_priority {T P O}. Arguments i_number {T P O}. Arguments i_action {T P O}.

(** What a program does next.
       sched.scheduler                                      Scheduler
       s.enter(delay, priority, action)                     s.schedule(action, delay, priority=priority)
       s.enterabs(time, priority, action)                   s.schedule(action, time, absolute=True, priority=priority)
       s.cancel(event)                                      s.cancel(event)
       s.empty()                                            not s
       s.queue                                              s.queue
       s.run()                                              for action in s: action()
       s.run(blocking=False)                                for action in s.non_blocking(): action()
       delayfunc                                            regulator.sleep
       timefunc                                             regulator.now
    An action stands for the function with its arguments. *)
Inductive move (T P O : Type) :=
| Enter (delay : T) (priority : P) (action : O)
| EnterAbs (time : T) (priority : P) (action : O)
| CancelNumber (k : Z)              (* cancel, with the event that was entered as number k *)
| CancelOther (e : item T P O)      (* cancel, with an event of another scheduler *)
| AskEmpty
| AskTheQueue
| Run (blocking : bool)
| Return                            (* the function that is running (an action, the delay function or the main program) returns *)
| Raise (stop : bool).              (* it raises; true: StopIteration.  If it called run, and run raised, this may be the same exception or another one *)
Arguments Enter {T P O}. Arguments EnterAbs {T P O}. Arguments CancelNumber {T P O}. Arguments CancelOther {T P O}. Arguments AskEmpty {T P O}.
Arguments AskTheQueue {T P O}. Arguments Run {T P O}. Arguments Return {T P O}. Arguments Raise {T P O}.

Inductive obs (T N I P O : Type) :=
| Clock (now : N)                   (* the clock was read *)
| Entered (e : item T P O)          (* enter returns e *)
| CancelOk
| CancelValueError
| NoSuchEvent                       (* no event number k has been returned: the program has nothing to pass *)
| IsEmpty (b : bool)
| QueueIs (l : list (item T P O))
| Delay (d : I)                     (* the delay function is called *)
| DelayZero                         (* the delay function is called with 0 after an action.  Simplified: it returns at once and does nothing else *)
| Act (action : O)                  (* an action is called *)
| RunReturns (deadline : option I)
| RunRaises (stop : bool)
| Over (raised : option bool).      (* the main program has returned or raised *)
Arguments Clock {T N I P O}. Arguments Entered {T N I P O}. Arguments CancelOk {T N I P O}. Arguments CancelValueError {T N I P O}. Arguments NoSuchEvent {T N I P O}.
Arguments IsEmpty {T N I P O}. Arguments QueueIs {T N I P O}. Arguments Delay {T N I P O}. Arguments DelayZero {T N I P O}. Arguments Act {T N I P O}.
Arguments RunReturns {T N I P O}. Arguments RunRaises {T N I P O}. Arguments Over {T N I P O}.

(** What sched uses of its values besides what big uses (K, p_lt): == in the comparison of tuples, and time > now. *)
Record sched_ops (T N P O : Type) := mkSchedOps { t_eq : T -> T -> bool; p_eq : P -> P -> bool; o_eq : O -> O -> bool; t_after : T -> N -> bool }.
Arguments mkSchedOps {T N P O}. Arguments t_eq {T N P O}. Arguments p_eq {T N P O}. Arguments o_eq {T N P O}. Arguments t_after {T N P O}.

Section Programs.
  Context {T N I P O : Type} (K : clockwork T N I) (p_lt p_gt : P -> P -> bool) (L : sched_ops T N P O).
  Notation item := (item T P O). Notation move := (move T P O). Notation obs := (obs T N I P O).

  (** What a program written for both does not look at: the call delayfunc(0), and what run(blocking=False) returns. *)
  Definition erase (l : list obs) : list obs :=
    flat_map (fun o => match o with DelayZero => [] | RunReturns _ => [RunReturns None] | o => [o] end) l.

  (** The program. *)
  Context (program : list obs -> move) (clock : list obs -> N).

  (** *** sched.scheduler *)
  (** Lib/sched.py Event = namedtuple('Event', 'time, priority, sequence, action, argument, kwargs').  q_owner: which scheduler returned it (not a field; with the number, the object's identity). *)
  Record sevent := mkSevent { q_owner : nat; q_time : T; q_priority : P; q_sequence : Z; q_action : O }.
  (** tuple.__lt__: the first position that differs decides.  Simplified: two events of a queue differ in their sequence numbers, so actions are not compared. *)
  Definition tuple_lt (a b : sevent) : bool :=
    if t_eq L (q_time a) (q_time b)
    then if p_eq L (q_priority a) (q_priority b) then (q_sequence a <? q_sequence b)%Z
         else p_lt (q_priority a) (q_priority b)
    else t_lt K (q_time a) (q_time b).
  (** tuple.__eq__, after [is] (list.remove) *)
  Definition tuple_eq (a b : sevent) : bool :=
    ((q_owner a =? q_owner b)%nat && (q_sequence a =? q_sequence b)%Z) ||
    (t_eq L (q_time a) (q_time b) && p_eq L (q_priority a) (q_priority b) && (q_sequence a =? q_sequence b)%Z && o_eq L (q_action a) (q_action b)).
  Definition sview (e : sevent) : item := mkItem (q_time e) (q_priority e) (q_sequence e) (q_action e).

  (** A frame: a call of run whose action (true) or delay function (false) is running. *)
  Record frame := mkFrame { f_blocking : bool; f_action : bool }.
  Record sstate := mkSstate { s_queue : list sevent; s_next : Z; s_issued : list sevent; s_stack : list frame; s_trace : list obs; s_over : bool }.
  (** Lib/sched.py scheduler.__init__ *)
  Definition sched_init : sstate := mkSstate [] 0 [] [] [] false.
  Definition slog (s : sstate) (l : list obs) : sstate := mkSstate (s_queue s) (s_next s) (s_issued s) (s_stack s) (s_trace s ++ l) (s_over s).
  Definition sstacked (s : sstate) (k : list frame) : sstate := mkSstate (s_queue s) (s_next s) (s_issued s) k (s_trace s) (s_over s).
  Definition squeued (s : sstate) (q : list sevent) : sstate := mkSstate q (s_next s) (s_issued s) (s_stack s) (s_trace s) (s_over s).
  Definition sover (s : sstate) : sstate := mkSstate (s_queue s) (s_next s) (s_issued s) (s_stack s) (s_trace s) true.

  (** Lib/sched.py scheduler.enterabs *)
  Definition sched_enterabs (s : sstate) (time : T) (priority : P) (action : O) : sstate :=
    let e := mkSevent 0 time priority (s_next s) action in
    mkSstate (heappush tuple_lt (s_queue s) e) (s_next s + 1) (s_issued s ++ [e]) (s_stack s) (s_trace s ++ [Entered (sview e)]) (s_over s).
  (** Lib/sched.py scheduler.enter *)
  Definition sched_enter (s : sstate) (delay : T) (priority : P) (action : O) : sstate :=
    let now := clock (erase (s_trace s)) in
    sched_enterabs (slog s [Clock now]) (t_add K delay now) priority action.
  (** Lib/sched.py scheduler.cancel *)
  Definition sched_cancel (s : sstate) (e : sevent) : sstate :=
    match list_remove tuple_eq e (s_queue s) with
    | Some q => slog (squeued s (heapify tuple_lt q)) [CancelOk]
    | None => slog s [CancelValueError]
    end.
  (** Lib/sched.py scheduler.queue: list(map(heapq.heappop, [events]*len(events))) *)
  Fixpoint pops (n : nat) (q : list sevent) : list sevent :=
    match n with
    | 0%nat => []
    | S n => match heappop tuple_lt q with Some (e, q) => e :: pops n q | None => [] end
    end.
  Definition sched_queue (s : sstate) : list sevent := pops (length (s_queue s)) (s_queue s).
  (** Lib/sched.py scheduler.run: the loop, from its beginning to the next call of an action or of the delay function, or to its end *)
  Definition sched_loop (s : sstate) (blocking : bool) : sstate :=
    match s_queue s with
    | [] => slog s [RunReturns None]
    | e :: _ =>
        let now := clock (erase (s_trace s)) in
        let s := slog s [Clock now] in
        if t_after L (q_time e) now
        then if blocking then sstacked (slog s [Delay (t_sub K (q_time e) now)]) (mkFrame true false :: s_stack s)
             else slog s [RunReturns (Some (t_sub K (q_time e) now))]
        else match heappop tuple_lt (s_queue s) with
             | Some (_, q) => sstacked (slog (squeued s q) [Act (q_action e)]) (mkFrame blocking true :: s_stack s)
             | None => s      (* does not occur: the queue is not empty *)
             end
    end.
  Definition sched_step (s : sstate) : sstate :=
    if s_over s then s else
    match program (erase (s_trace s)) with
    | Enter delay priority action => sched_enter s delay priority action
    | EnterAbs time priority action => sched_enterabs s time priority action
    | CancelNumber k => match find (fun e => q_sequence e =? k)%Z (s_issued s) with Some e => sched_cancel s e | None => slog s [NoSuchEvent] end
    | CancelOther e => sched_cancel s (mkSevent 1 (i_time e) (i_priority e) (i_number e) (i_action e))
    | AskEmpty => slog s [IsEmpty (match s_queue s with [] => true | _ => false end)]
    | AskTheQueue => slog s [QueueIs (map sview (sched_queue s))]
    | Run blocking => sched_loop s blocking
    | Return => match s_stack s with
                | [] => sover (slog s [Over None])
                | f :: k => let s := sstacked s k in
                            sched_loop (if f_action f then slog s [DelayZero] else s) (f_blocking f)
                end
    | Raise stop => match s_stack s with
                    | [] => sover (slog s [Over (Some stop)])
                    | _ :: k => slog (sstacked s k) [RunRaises stop]
                    end
    end.
  Definition sched_run (n : nat) : sstate := Nat.iter n sched_step sched_init.

  (** *** Scheduler, with the blocks of SregModel.v *)
  Definition bview (e : event T P O) : item := mkItem (v_time e) (v_priority e) (v_sequence e - 1) (v_object e).
  Record bstate := mkBstate { b_sched : SregModel.state T N I P O; b_stack : list frame; b_trace : list obs; b_over : bool }.
  Definition big_init : bstate := mkBstate SregModel.initial [] [] false.
  Definition blog (s : bstate) (l : list obs) : bstate := mkBstate (b_sched s) (b_stack s) (b_trace s ++ l) (b_over s).
  Definition bstacked (s : bstate) (k : list frame) : bstate := mkBstate (b_sched s) k (b_trace s) (b_over s).
  Definition bover (s : bstate) : bstate := mkBstate (b_sched s) (b_stack s) (b_trace s) true.
  (** one block, and what it did *)
  Definition block_of (s : bstate) (b : block T N P O) : bstate * option (deed T N I P O) :=
    let m := SregModel.step K p_lt p_gt (b_sched s) b in
    (mkBstate m (b_stack s) (b_trace s) (b_over s), last (map Some (r_log m)) None).

  (** big/scheduler.py:267-291 Scheduler.schedule(action, time, absolute=True, priority=priority) *)
  Definition big_enterabs (s : bstate) (time : T) (priority : P) (action : O) : bstate :=
    match block_of s (Schedule action time None priority) with
    | (s, Some (Scheduled e)) => blog s [Entered (bview e)]
    | (s, _) => s
    end.
  (** big/scheduler.py:267-291 Scheduler.schedule(action, delay, priority=priority) *)
  Definition big_enter (s : bstate) (delay : T) (priority : P) (action : O) : bstate :=
    let now := clock (b_trace s) in
    match block_of (blog s [Clock now]) (Schedule action delay (Some now) priority) with
    | (s, Some (Scheduled e)) => blog s [Entered (bview e)]
    | (s, _) => s
    end.
  (** big/scheduler.py:293-302 Scheduler.cancel *)
  Definition big_cancel (s : bstate) (e : event T P O) : bstate :=
    match block_of s (Cancel e) with
    | (s, Some (Cancelled _)) => blog s [CancelOk]
    | (s, Some (CancelRaises _)) => blog s [CancelValueError]
    | (s, _) => s
    end.
  (** for action in s: action() -- or s.non_blocking() -- from a call of the iterator's __next__ (big/scheduler.py:332-367, 369-373, 376-393) to the next call of an action or of sleep, or to the loop's end *)
  Definition big_loop (s : bstate) (blocking : bool) : bstate :=
    let now := clock (b_trace s) in
    match block_of s (Round 0 blocking now) with
    | (s, Some (Yields _ e now)) => bstacked (blog s [Clock now; Act (v_object e)]) (mkFrame blocking true :: b_stack s)
    | (s, Some (Sleeps _ now d)) => bstacked (blog s [Clock now; Delay d]) (mkFrame blocking false :: b_stack s)
    | (s, Some (Stops _ (Some now))) => blog s [Clock now; RunReturns None]
    | (s, Some (Stops _ None)) => blog s [RunReturns None]
    | (s, _) => s
    end.
  Definition big_step (s : bstate) : bstate :=
    if b_over s then s else
    match program (b_trace s) with
    | Enter delay priority action => big_enter s delay priority action
    | EnterAbs time priority action => big_enterabs s time priority action
    | CancelNumber k => match find (fun e => v_sequence e - 1 =? k)%Z (scheduled (r_log (b_sched s))) with Some e => big_cancel s e | None => blog s [NoSuchEvent] end
    | CancelOther e => big_cancel s (mkEvent 1 (i_action e) (i_time e) (i_priority e) (i_number e + 1))
    | AskEmpty => match block_of s AskBool with (s, Some (IsBool b)) => blog s [IsEmpty (negb b)] | (s, _) => s end
    | AskTheQueue => match block_of s AskQueue with (s, Some (IsQueue l)) => blog s [QueueIs (map bview l)] | (s, _) => s end
    | Run blocking => big_loop s blocking
    | Return => match b_stack s with
                | [] => bover (blog s [Over None])
                | f :: k => big_loop (bstacked s k) (f_blocking f)
                end
    | Raise stop => match b_stack s with
                    | [] => bover (blog s [Over (Some stop)])
                    | f :: k => if f_action f then blog (bstacked s k) [RunRaises stop]      (* the body of the for statement raises *)
                                else if stop then blog (bstacked s k) [RunReturns None]      (* __next__ raises StopIteration: the for statement ends *)
                                else blog (bstacked s k) [RunRaises stop]
                    end
    end.
  Definition big_run (n : nat) : bstate := Nat.iter n big_step big_init.
End Programs.

(** The values compare in a way that suits both: == is neither < nor >, and t > now says that t - now is not <= 0. *)
Definition alike_ops {T N I P O : Type} (K : clockwork T N I) (p_lt p_gt : P -> P -> bool) (L : sched_ops T N P O) : Prop :=
  (forall a b, t_eq L a b = negb (t_lt K a b || t_gt K a b)) /\
  (forall a b, p_eq L a b = negb (p_lt a b || p_gt a b)) /\
  (forall t n, t_after L t n = negb (i_le0 K (t_sub K t n))).

Section Guards.
  Context {T N I P O : Type} (K : clockwork T N I) (p_lt : P -> P -> bool) (L : sched_ops T N P O).
  Context (program : list (obs T N I P O) -> move T P O) (clock : list (obs T N I P O) -> N).
  (** the delay function does not raise StopIteration (which the iterator would take for its own) *)
  Definition quiet_delays : Prop :=
    forall n k, s_stack (sched_run K p_lt L program clock n) = mkFrame true false :: k -> program (erase (s_trace (sched_run K p_lt L program clock n))) <> Raise true.
  (** events are cancelled in the scheduler they come from *)
  Definition own_events : Prop := forall h e, program h <> CancelOther e.
  (** the property queue is not used *)
  Definition queue_unused : Prop := forall h, program h <> AskTheQueue.
End Guards.
