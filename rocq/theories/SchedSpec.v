(** What the properties of the Scheduler say, over the history (log) of an execution.
    Nothing here mentions the heap, the lock variable or program counters. *)
From Verif Require Import PyBase SchedModel.

(** events scheduled / yielded / cancelled so far, in order *)
Definition scheduled (l : list act) : list event :=
  flat_map (fun a => match a with ASched _ e => [e] | _ => [] end) l.
Definition yielded (l : list act) : list event :=
  flat_map (fun a => match a with AYield _ e => [e] | _ => [] end) l.
Definition cancelled (l : list act) : list event :=
  flat_map (fun a => match a with ACancel _ e => [e] | _ => [] end) l.
(** scheduled and neither yielded nor cancelled yet *)
Definition pending (l : list act) (e : event) : Prop :=
  In e (scheduled l) /\ ~ In e (yielded l) /\ ~ In e (cancelled l).
(** [e1] was scheduled before [e2] *)
Definition scheduled_before (l : list act) (e1 e2 : event) : Prop :=
  exists l1 l2 l3, scheduled l = l1 ++ e1 :: l2 ++ e2 :: l3.
(** time, then priority, then order of scheduling *)
Definition comes_first (l : list act) (e1 e2 : event) : Prop :=
  (e_time e1 < e_time e2)%Z \/
  e_time e1 = e_time e2 /\
    ((e_prio e1 < e_prio e2)%Z \/ e_prio e1 = e_prio e2 /\ scheduled_before l e1 e2).
(** the current time, given the time at the start *)
Definition clock_of (c0 : Z) (l : list act) : Z :=
  fold_left (fun c a => match a with ATick d => (c + d)%Z | _ => c end) l c0.
(** who holds the regulator's lock *)
Definition holder (l : list act) : option tid :=
  fold_left (fun h a => match a with AAcq t => Some t | ARel t => None | _ => h end) l None.

(** the time [t] read since it last acquired the lock *)
Definition time_read (t : tid) (l : list act) : option Z :=
  fold_left (fun r a => match a with
    | AAcq u => if u =? t then None else r
    | ANow u v => if u =? t then Some v else r
    | _ => r end) l None.

(** [good c0 l a]: the action [a] is allowed to happen after the history [l] *)
Definition good (c0 : Z) (l : list act) (a : act) : Prop :=
  match a with
  | ASched t e => holder l = Some t /\ ~ In e (scheduled l)             (* a brand-new event object *)
  | AYield t e =>
      holder l = Some t /\ pending l e /\                                                   (* nothing lost or duplicated *)
      (forall e', pending l e' -> e' <> e -> comes_first l e e') /\    (* in order *)
      (e_time e <= clock_of c0 l)%Z                                    (* never early *)
  | ACancel t e => holder l = Some t /\ pending l e
  | ACancelFail t e => holder l = Some t /\ ~ pending l e
  | AEmpty t => holder l = Some t /\ forall e, ~ pending l e
  | ABool t b => holder l = Some t /\ (b = true <-> exists e, pending l e)
  | AQueue t q =>
      holder l = Some t /\ NoDup q /\ (forall e, In e q <-> pending l e) /\
      StronglySorted (fun e e' => comes_first l e e') q
  | ANow t v => v = clock_of c0 l /\ holder l = Some t                 (* now() holding the lock *)
  | ANotDue t => holder l = Some t /\ (exists e, pending l e) /\
      exists n, time_read t l = Some n /\ forall e, pending l e -> (n < e_time e)%Z
  | AWake t => holder l = Some t
  | ASleep t d => holder l <> Some t /\ (0 < d)%Z
  | AAcq t => holder l = None
  | ARel t => holder l = Some t
  | ACall t _ => holder l <> Some t
  | ARet t _ => holder l <> Some t
  | ATick d => (0 <= d)%Z
  end.

(** One thread's view.  Its part of the history, without lock/wake/sleep. *)
Definition of_thread (t : tid) (l : list act) : list act :=
  filter (fun a => match a with
    | ACall u _ | ARet u _ | ANow u _ | ASched u _ | ACancel u _ | ACancelFail u _ | AYield u _
    | AEmpty u | ANotDue u | ABool u _ | AQueue u _ => u =? t
    | _ => false end) l.

(** A finished call: it read the clock [ns], took effect once, and returned [r]. *)
Definition call_ok (t : tid) (c : call) (ns : list Z) (a : act) (r : ret) : Prop :=
  match c with
  | CSchedule o tm absolute pr =>
      exists e, a = ASched t e /\ r = RetEvent e /\ e_obj e = o /\ e_prio e = pr /\
        if absolute then ns = [] /\ e_time e = tm else exists n, ns = [n] /\ e_time e = (tm + n)%Z
  | CCancel e => a = ACancel t e /\ r = RetNone \/ a = ACancelFail t e /\ r = RetValueError
  | CNext b =>
      (exists e, a = AYield t e /\ r = RetObj (e_obj e)) \/
      (a = AEmpty t /\ r = RetStop) \/
      (b = false /\ a = ANotDue t /\ r = RetStop)
  | CBool => exists b, a = ABool t b /\ r = RetBool b
  | CQueue => exists q, a = AQueue t q /\ r = RetQueue q
  end.
(** a sequence of finished calls of thread [t] *)
Inductive calls_ok (t : tid) : list act -> Prop :=
| co_nil : calls_ok t []
| co_snoc l c ns a r : calls_ok t l -> call_ok t c ns a r ->
    calls_ok t (l ++ ACall t c :: map (ANow t) ns ++ [a; ARet t r]).

(** draining scheduler.non_blocking() in thread [t], alone, with the clock standing still *)
Definition drain_move (t : tid) (m : move) : Prop :=
  match m with MCall u (CNext false) => u = t | MStep u => u = t | _ => False end.

(** a move that is not a step of thread [u] *)
Definition not_by (u : tid) (m : move) : Prop :=
  match m with MCall t _ | MStep t | MEarly t => t <> u | MTick _ => True end.

(** the regulator's contract (big/scheduler.py:82-131) and the use of its lock *)
Definition lock_rule (l : list act) (a : act) : Prop :=
  match a with
  | ANow t _ | AWake t => holder l = Some t
  | ASleep t d => holder l <> Some t /\ (0 < d)%Z
  | AAcq t => holder l = None
  | ARel t => holder l = Some t
  | ASched t _ | ACancel t _ | ACancelFail t _ | AYield t _ | AEmpty t | ANotDue t | ABool t _ | AQueue t _ =>
      holder l = Some t
  | ACall t _ | ARet t _ => holder l <> Some t
  | ATick _ => True
  end.
