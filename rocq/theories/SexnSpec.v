(** What a thread may see of a Scheduler when calls may raise.  Uses only the history. *)
From Verif Require Import PyBase SchedModel SchedSpec SexnModel.

(** the history without the exceptions *)
Definition plain (l : list xact) : list act := flat_map (fun x => match x with XA a => [a] | XExn _ => [] end) l.
(** one thread's part of it, without lock/wake/sleep *)
Definition xof_thread (t : tid) (l : list xact) : list xact :=
  flat_map (fun x => match x with XA a => map XA (of_thread t [a]) | XExn u => if u =? t then [x] else [] end) l.

(** A call that raised has had no effect, or all of the effect it would have had when returning [r]. *)
Definition raised_ok (t : tid) (c : call) (ns : list Z) (effect : list act) : Prop :=
  effect = [] \/ exists a r, effect = [a] /\ call_ok t c ns a r.
(** If only the regulator raises, an effect is possible for schedule and cancel only: they have taken place although they raise. *)
Definition raised_by_regulator (t : tid) (c : call) (ns : list Z) (effect : list act) : Prop :=
  effect = [] \/
  match c with
  | CSchedule _ _ _ _ | CCancel _ => exists a r, effect = [a] /\ call_ok t c ns a r /\ r <> RetValueError
  | CNext _ | CBool | CQueue => False
  end.

(** a sequence of calls of thread [t], each of which returned or raised *)
Inductive xcalls_ok (raised : tid -> call -> list Z -> list act -> Prop) (t : tid) : list xact -> Prop :=
| xc_nil : xcalls_ok raised t []
| xc_ret l c ns a r : xcalls_ok raised t l -> call_ok t c ns a r ->
    xcalls_ok raised t (l ++ map XA (ACall t c :: map (ANow t) ns ++ [a; ARet t r]))
| xc_exn l c ns effect : xcalls_ok raised t l -> raised t c ns effect ->
    xcalls_ok raised t (l ++ map XA (ACall t c :: map (ANow t) ns ++ effect) ++ [XExn t]).
(** the payloads next() returned, and those of the events yielded, in one thread's history *)
Definition payloads_returned (l : list act) : list Z := flat_map (fun a => match a with ARet _ (RetObj o) => [o] | _ => [] end) l.
