(** Model of big/scheduler.py when an exception strikes a thread at any statement of a call:
    raised by the regulator (now, sleep, wake, or its lock on entry), or asynchronous (KeyboardInterrupt).
    The threads and statements are those of SchedModel. *)
From Verif Require Export PyBase HeapModel SchedModel.

(** The statements inside a block [with self.regulator.lock:] (big/scheduler.py:284-290, 300-302, 311-312, 329-330, 341-360).
    Entering and leaving the block are single steps: an asynchronous exception in the middle of either is not modelled. *)
Definition in_with (p : pc) : bool :=
  match p with
  | PSched1 _ _ _ _ | PSched2 _ _ _ | PSched3 _ _ _ | PSched4 _ | PSched4b _ | PSched5 _ => true
  | PCan1 _ | PCan2 | PCan2b | PCan3 | PCanErr1 => true
  | PNext1 _ | PNext2 _ | PNext3 _ _ | PNext4 _ _ _ | PNextRet1 _ | PNextStop1 | PNext5 _ _ => true
  | PBool1 | PBool2 _ | PQueue1 | PQueue2 _ => true
  | Idle | PSched0 _ _ _ _ | PSched6 _ | PCan0 _ | PCan4 | PCanErr2 | PNext0 _ | PNextRet2 _ | PNextStop2 | PNext6 _ _ | PSleep _ | PWait _ _
  | PBool0 | PBool3 _ | PQueue0 | PQueue3 _ => false
  end.
(** The statements that call the regulator: its lock, now(), wake() (set, then clear; big/scheduler.py:175-177) and sleep() (:179-180). *)
Definition calls_regulator (p : pc) : bool :=
  match p with
  | PSched0 _ _ _ _ | PCan0 _ | PNext0 _ | PBool0 | PQueue0 => true
  | PSched1 _ _ absolute _ => negb absolute
  | PNext2 _ => true
  | PSched4 _ | PSched4b _ | PCan2 | PCan2b => true
  | PSleep _ | PWait _ _ => true
  | _ => false
  end.

(** what is seen: the actions of SchedModel, and a call of thread [t] that ends with an exception *)
Inductive xact := XA (a : act) | XExn (t : tid).
Inductive xmove :=
| XMove (m : move)
| XRaise (t : tid)        (* the statement thread t is about to execute raises *)
.
(** The exception leaves the call: the with block releases the lock; nothing else is undone. *)
Definition raise_at (s : sstate) (t : tid) : sstate :=
  if in_with (s_pc s t) then release s t Idle else go s t Idle [].
Definition xstate := (sstate * list xact)%type.
(** what was added to the history *)
Definition added (s s' : sstate) : list act := skipn (length (s_log s)) (s_log s').
Definition xsstep (x : xstate) (m : xmove) : xstate :=
  let '(s, l) := x in
  match m with
  | XMove m => (sstep s m, l ++ map XA (added s (sstep s m)))
  | XRaise t =>
      match s_pc s t with
      | Idle => x
      | _ => (raise_at s t, l ++ map XA (added s (raise_at s t)) ++ [XExn t])
      end
  end.
Definition xsrun (x : xstate) (ms : list xmove) : xstate := fold_left xsstep ms x.
Definition xsinit (clock : Z) : xstate := (sinit clock, []).
(** only the regulator raises *)
Definition regulator_only (x : xstate) (m : xmove) : Prop :=
  match m with XMove _ => True | XRaise t => calls_regulator (s_pc (fst x) t) = true end.
Fixpoint only_regulator (x : xstate) (ms : list xmove) : Prop :=
  match ms with [] => True | m :: ms => regulator_only x m /\ only_regulator (xsstep x m) ms end.
