(** Model of big/scheduler.py: any number of threads, one Scheduler with a
    ThreadSafeRegulator, at the granularity of single source statements.
    Times, intervals, priorities and payloads are integers. *)
From Verif Require Import PyBase HeapModel.

(** big/scheduler.py:185-198 class Event.  [e_owner] is the scheduler the event
    belongs to (0 is the modelled one); Event has no __eq__, so equality is object
    identity; within one scheduler objects differ in [e_seq], foreign objects differ
    in [e_owner], so equality of all fields is identity of objects. *)
Record event := mkEvent { e_owner : nat; e_obj : Z; e_time : Z; e_prio : Z; e_seq : Z }.
Definition event_eqb (a b : event) : bool :=
  (e_owner a =? e_owner b)%nat && (e_obj a =? e_obj b)%Z && (e_time a =? e_time b)%Z &&
  (e_prio a =? e_prio b)%Z && (e_seq a =? e_seq b)%Z.

(** big/scheduler.py:200-214 Event.__lt__ *)
Definition event_ltb (a b : event) : bool :=
  if (e_time a <? e_time b)%Z then true
  else if (e_time b <? e_time a)%Z then false
  else if (e_prio a <? e_prio b)%Z then true
  else if (e_prio b <? e_prio a)%Z then false
  else if (e_seq a <? e_seq b)%Z then true
  else false.

Definition tid := nat.

(** the public calls: Scheduler.schedule, Scheduler.cancel (and Event.cancel, which
    only calls it, big/scheduler.py:219-220), next(scheduler) ([Next true]),
    next(scheduler.non_blocking()) ([Next false]), bool(scheduler), scheduler.queue *)
Inductive call :=
| CSchedule (o time : Z) (absolute : bool) (priority : Z)
| CCancel (e : event) | CNext (blocking : bool) | CBool | CQueue.
(** what a call returns or raises *)
Inductive ret :=
| RetEvent (e : event) | RetNone | RetValueError | RetObj (o : Z) | RetStop
| RetBool (b : bool) | RetQueue (l : list event).

(** what happens, in order; the log is the observable history of an execution *)
Inductive act :=
| ACall (t : tid) (c : call) | ARet (t : tid) (r : ret)
| AAcq (t : tid) | ARel (t : tid)                       (* regulator.lock *)
| ANow (t : tid) (v : Z) | AWake (t : tid) | ASleep (t : tid) (d : Z)  (* regulator calls *)
| ASched (t : tid) (e : event)                          (* heap.append(event) *)
| ACancel (t : tid) (e : event) | ACancelFail (t : tid) (e : event)    (* heap.remove *)
| AYield (t : tid) (e : event)                          (* heap.popleft(); [e] is what will be returned *)
| AEmpty (t : tid) | ANotDue (t : tid)
| ABool (t : tid) (b : bool) | AQueue (t : tid) (l : list event)
| ATick (d : Z).                                        (* the clock advances *)

(** program counters: which statement the thread executes next *)
Inductive pc :=
| Idle
(* schedule, big/scheduler.py:284-291 *)
| PSched0 (o time : Z) (absolute : bool) (pr : Z)    (* with self.regulator.lock: *)
| PSched1 (o time : Z) (absolute : bool) (pr : Z)    (* if not absolute: time += now() *)
| PSched2 (o time : Z) (pr : Z)                      (* self.event_id_counter += 1 *)
| PSched3 (o time : Z) (pr : Z)                      (* event = Event(...); self.heap.append(event) *)
| PSched4 (e : event) | PSched4b (e : event)         (* wake(): event.set(); event.clear() *)
| PSched5 (e : event)                                (* leave the with block *)
| PSched6 (e : event)                                (* return event *)
(* cancel, big/scheduler.py:300-302 *)
| PCan0 (e : event) | PCan1 (e : event) | PCan2 | PCan2b | PCan3 | PCan4
| PCanErr1 | PCanErr2
(* _next, big/scheduler.py:340-367 *)
| PNext0 (b : bool)                                  (* with self.regulator.lock: *)
| PNext1 (b : bool)                                  (* if not self.heap: raise StopIteration *)
| PNext2 (b : bool)                                  (* now = self.regulator.now() *)
| PNext3 (b : bool) (now : Z)                        (* ev = self.heap[0]; time_to_next_event = ... *)
| PNext4 (b : bool) (ev : event) (dt : Z)            (* if time_to_next_event <= 0: popleft *)
| PNextRet1 (ev : event) | PNextRet2 (ev : event)    (* release; return ev.event *)
| PNextStop1 | PNextStop2                            (* release; raise StopIteration *)
| PNext5 (b : bool) (dt : Z)                         (* leave the with block *)
| PNext6 (b : bool) (dt : Z)                         (* if not blocking: raise StopIteration *)
| PSleep (dt : Z)                                    (* sleep(dt): about to enter event.wait *)
| PWait (deadline : Z) (woken : bool)                (* inside event.wait *)
(* __bool__, big/scheduler.py:311-312; queue, big/scheduler.py:329-330 *)
| PBool0 | PBool1 | PBool2 (b : bool) | PBool3 (b : bool)
| PQueue0 | PQueue1 | PQueue2 (l : list event) | PQueue3 (l : list event).

(** big/scheduler.py:262-265 Scheduler.__init__ and :165-167 ThreadSafeRegulator.__init__,
    plus the clock and the threads *)
Record sstate := mkS {
  s_heap : heap event; s_counter : Z; s_lock : option tid; s_flag : bool;
  s_clock : Z; s_pc : tid -> pc; s_log : list act }.
Definition sinit (clock : Z) : sstate := mkS (mkHeap [] 0) 0 None false clock (fun _ => Idle) [].

Definition setpc (f : tid -> pc) (t : tid) (p : pc) : tid -> pc := fun u => if u =? t then p else f u.
Definition go (s : sstate) (t : tid) (p : pc) (acts : list act) : sstate :=
  mkS (s_heap s) (s_counter s) (s_lock s) (s_flag s) (s_clock s) (setpc (s_pc s) t p) (s_log s ++ acts).
Definition with_heap (s : sstate) (h : heap event) : sstate :=
  mkS h (s_counter s) (s_lock s) (s_flag s) (s_clock s) (s_pc s) (s_log s).
Definition with_lock (s : sstate) (l : option tid) : sstate :=
  mkS (s_heap s) (s_counter s) l (s_flag s) (s_clock s) (s_pc s) (s_log s).
Definition with_counter (s : sstate) (c : Z) : sstate :=
  mkS (s_heap s) c (s_lock s) (s_flag s) (s_clock s) (s_pc s) (s_log s).
Definition with_flag (s : sstate) (b : bool) : sstate :=
  mkS (s_heap s) (s_counter s) (s_lock s) b (s_clock s) (s_pc s) (s_log s).
(** threading.Event.set: every thread inside wait() is woken *)
Definition woken_pc (p : pc) : pc := match p with PWait d _ => PWait d true | _ => p end.
Definition wake_all (s : sstate) : sstate :=
  mkS (s_heap s) (s_counter s) (s_lock s) (s_flag s) (s_clock s)
    (fun u => woken_pc (s_pc s u)) (s_log s).

(** threading.Lock.acquire: blocks (no step) while the lock is held by anyone *)
Definition acquire (s : sstate) (t : tid) (p : pc) : sstate :=
  match s_lock s with
  | Some _ => s
  | None => go (with_lock s (Some t)) t p [AAcq t]
  end.
Definition release (s : sstate) (t : tid) (p : pc) : sstate := go (with_lock s None) t p [ARel t].

Definition start (c : call) : pc :=
  match c with
  | CSchedule o tm a pr => PSched0 o tm a pr
  | CCancel e => PCan0 e
  | CNext b => PNext0 b
  | CBool => PBool0
  | CQueue => PQueue0
  end.

(** one statement of thread [t] *)
Definition tstep (s : sstate) (t : tid) : sstate :=
  match s_pc s t with
  | Idle => s
  | PSched0 o tm a pr => acquire s t (PSched1 o tm a pr)
  | PSched1 o tm a pr =>
    if a then go s t (PSched2 o tm pr) []
    else go s t (PSched2 o (tm + s_clock s) pr) [ANow t (s_clock s)]
  | PSched2 o tm pr => go (with_counter s (s_counter s + 1)) t (PSched3 o tm pr) []
  | PSched3 o tm pr =>
    let e := mkEvent 0 o tm pr (s_counter s) in
    go (with_heap s (fst (hstep event_ltb event_eqb (s_heap s) (Append e)))) t (PSched4 e) [ASched t e]
  | PSched4 e => go (wake_all (with_flag s true)) t (PSched4b e) [AWake t]
  | PSched4b e => go (with_flag s false) t (PSched5 e) []
  | PSched5 e => release s t (PSched6 e)
  | PSched6 e => go s t Idle [ARet t (RetEvent e)]
  | PCan0 e => acquire s t (PCan1 e)
  | PCan1 e =>
    match hstep event_ltb event_eqb (s_heap s) (Remove e) with
    | (h, Ok _) => go (with_heap s h) t PCan2 [ACancel t e]
    | (h, Err _) => go (with_heap s h) t PCanErr1 [ACancelFail t e]
    end
  | PCan2 => go (wake_all (with_flag s true)) t PCan2b [AWake t]
  | PCan2b => go (with_flag s false) t PCan3 []
  | PCan3 => release s t PCan4
  | PCan4 => go s t Idle [ARet t RetNone]
  | PCanErr1 => release s t PCanErr2
  | PCanErr2 => go s t Idle [ARet t RetValueError]
  | PNext0 b => acquire s t (PNext1 b)
  | PNext1 b => if heap_bool (s_heap s) then go s t (PNext2 b) [] else go s t PNextStop1 [AEmpty t]
  | PNext2 b => go s t (PNext3 b (s_clock s)) [ANow t (s_clock s)]
  | PNext3 b now =>
    match heap_getitem event_ltb (s_heap s) (IInt 0) with
    | Ok (One ev) => go s t (PNext4 b ev (e_time ev - now)) []
    | _ => s  (* IndexError: proved unreachable (the thread would be stuck holding the lock) *)
    end
  | PNext4 b ev dt =>
    if (dt <=? 0)%Z
    then go (with_heap s (fst (hstep event_ltb event_eqb (s_heap s) Popleft))) t (PNextRet1 ev) [AYield t ev]
    else go s t (PNext5 b dt) (if b then [] else [ANotDue t])
  | PNextRet1 ev => release s t (PNextRet2 ev)
  | PNextRet2 ev => go s t Idle [ARet t (RetObj (e_obj ev))]
  | PNextStop1 => release s t PNextStop2
  | PNextStop2 => go s t Idle [ARet t RetStop]
  | PNext5 b dt => release s t (PNext6 b dt)
  | PNext6 b dt => if b then go s t (PSleep dt) [ASleep t dt] else go s t Idle [ARet t RetStop]
  | PSleep dt => if s_flag s then go s t (PNext0 true) [] else go s t (PWait (s_clock s + dt) false) []
  | PWait d woken => if woken || (d <=? s_clock s)%Z then go s t (PNext0 true) [] else s
  | PBool0 => acquire s t PBool1
  | PBool1 => go s t (PBool2 (heap_bool (s_heap s))) [ABool t (heap_bool (s_heap s))]
  | PBool2 b => release s t (PBool3 b)
  | PBool3 b => go s t Idle [ARet t (RetBool b)]
  | PQueue0 => acquire s t PQueue1
  | PQueue1 => go s t (PQueue2 (heap_queue event_ltb (s_heap s))) [AQueue t (heap_queue event_ltb (s_heap s))]
  | PQueue2 l => release s t (PQueue3 l)
  | PQueue3 l => go s t Idle [ARet t (RetQueue l)]
  end.

(** The environment chooses who moves: an interleaving is a list of moves. *)
Inductive move :=
| MCall (t : tid) (c : call)   (* an idle thread starts a call *)
| MStep (t : tid)              (* thread t executes its next statement *)
| MEarly (t : tid)             (* a sleeping thread wakes early (imperfect timer) *)
| MTick (d : Z).               (* time passes, d >= 0 *)
Definition sstep (s : sstate) (m : move) : sstate :=
  match m with
  | MCall t c => match s_pc s t with Idle => go s t (start c) [ACall t c] | _ => s end
  | MStep t => tstep s t
  | MEarly t => match s_pc s t with PWait _ _ => go s t (PNext0 true) [] | _ => s end
  | MTick d => if (0 <=? d)%Z then
      mkS (s_heap s) (s_counter s) (s_lock s) (s_flag s) (s_clock s + d) (s_pc s) (s_log s ++ [ATick d])
      else s
  end.
Definition srun (s : sstate) (ms : list move) : sstate := fold_left sstep ms s.
