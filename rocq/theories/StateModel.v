(** Model of big/state.py: StateManager.
    State objects and observers are compared by identity and named by numbers.  Callbacks
    (on_exit, on_enter, observers, and the program using the manager) are arbitrary
    deterministic programs that may read the manager's attributes, assign to them, keep
    memory of their own shared among all of them, catch exceptions, and raise. *)
From Verif Require Import PyBase.

(** A program with its interactions with the manager; [M] is everything else the
    callbacks can read and write. *)
Inductive prog (M : Type) :=
| Ret (r : result unit)                                  (* return, or raise *)
| ReadState (k : option nat -> prog M)                   (* manager.state *)
| ReadNext (k : option nat -> prog M)                    (* manager.next *)
| ReadObs (k : list nat -> prog M)                       (* manager.observers *)
| WriteObs (l : list nat) (k : prog M)                   (* mutate or replace manager.observers *)
| Assign (s : option nat) (k : result unit -> prog M)    (* manager.state = s, inside try *)
| ReadMem (k : M -> prog M)
| WriteMem (m : M) (k : prog M).
Arguments Ret {M}. Arguments ReadState {M}. Arguments ReadNext {M}. Arguments ReadObs {M}.
Arguments WriteObs {M}. Arguments Assign {M}. Arguments ReadMem {M}. Arguments WriteMem {M}.

(** What happened, in order: reads, rejected and accepted assignments, the calls the
    manager makes (with the values of [state] and [next] at that moment), the end of a
    transition, and a transition abandoned because a callback raised. *)
Inductive event :=
| EReadState (v : option nat) | EReadNext (v : option nat) | EWriteObs (l : list nat)
| EReject (s : option nat) (e : exn)
| EStart (new : nat)
| EExit (s : nat) (st nx : option nat)
| EObserve (o : nat) (st nx : option nat)
| EFail
| ECommit
| EEnter (s : nat) (st nx : option nat).

(** big/state.py:190-193, 238, 259-282: the manager's attributes, plus the callers'
    memory and the trace (newest first) *)
Record mgr (M : Type) := mkM {
  m_state : option nat; m_next : option nat;
  m_obs : list nat; m_copy : list nat; m_tuple : list nat;
  m_mem : M; m_trace : list event
}.
Arguments mkM {M}. Arguments m_state {M}. Arguments m_next {M}. Arguments m_obs {M}.
Arguments m_copy {M}. Arguments m_tuple {M}. Arguments m_mem {M}. Arguments m_trace {M}.

(** The environment: isinstance(s, state_class) (constantly true when state_class is
    None), the on_exit / on_enter callbacks of a state object (None when it has none or
    when the manager was told not to call them; attributes of state objects are fixed),
    observers, and == between observers. *)
Record env (M : Type) := mkEnv {
  e_class : option nat -> bool;
  e_exit : nat -> option (prog M);
  e_enter : nat -> option (prog M);
  e_obs : nat -> prog M;
  e_oeq : nat -> nat -> bool
}.
Arguments mkEnv {M}. Arguments e_class {M}. Arguments e_exit {M}. Arguments e_enter {M}.
Arguments e_obs {M}. Arguments e_oeq {M}.

(** The outcome of running something: it finished, or the step budget ran out *)
Inductive outcome := Fin (r : result unit) | Timeout.

Section Sem.
  Context {M : Type} (E : env M).
  Definition emit (ev : event) (m : mgr M) :=
    mkM (m_state m) (m_next m) (m_obs m) (m_copy m) (m_tuple m) (m_mem m) (ev :: m_trace m).
  Definition set_next (x : option nat) (m : mgr M) :=
    mkM (m_state m) x (m_obs m) (m_copy m) (m_tuple m) (m_mem m) (m_trace m).
  Definition set_state (x : option nat) (m : mgr M) :=
    mkM x (m_next m) (m_obs m) (m_copy m) (m_tuple m) (m_mem m) (m_trace m).
  Definition set_obs (l : list nat) (m : mgr M) :=
    mkM (m_state m) (m_next m) l (m_copy m) (m_tuple m) (m_mem m) (m_trace m).
  Definition set_mem (x : M) (m : mgr M) :=
    mkM (m_state m) (m_next m) (m_obs m) (m_copy m) (m_tuple m) x (m_trace m).
  Definition set_cache (l : list nat) (m : mgr M) :=
    mkM (m_state m) (m_next m) (m_obs m) l l (m_mem m) (m_trace m).

  (** list == list: elements compared by identity first, then == *)
  Fixpoint list_eq (a b : list nat) : bool :=
    match a, b with
    | [], [] => true
    | x :: s, y :: t => ((x =? y)%nat || e_oeq E x y) && list_eq s t
    | _, _ => false
    end.

  Definition state_is (m : mgr M) (n : nat) : bool :=
    match m_state m with Some s => (s =? n)%nat | None => false end.

  (** [run p m]: how a callback is executed *)
  Context (run : prog M -> mgr M -> mgr M * outcome).

  (** big/state.py:232-233: for o in self._observers_tuple: o(self) *)
  Fixpoint call_observers (l : list nat) (m : mgr M) : mgr M * outcome :=
    match l with
    | [] => (m, Fin (Ok tt))
    | o :: t =>
        match run (e_obs E o) (emit (EObserve o (m_state m) (m_next m)) m) with
        | (m', Fin (Ok _)) => call_observers t m'
        | other => other
        end
    end.
  (** big/state.py:224-227 *)
  Definition call_exit (m : mgr M) : mgr M * outcome :=
    match m_state m with
    | None => (m, Fin (Ok tt))          (* the initial None has no on_exit *)
    | Some s => match e_exit E s with
                | None => (m, Fin (Ok tt))
                | Some p => run p (emit (EExit s (m_state m) (m_next m)) m)
                end
    end.
  (** big/state.py:228-233 *)
  Definition notify_observers (m : mgr M) : mgr M * outcome :=
    match m_obs m with
    | [] => (m, Fin (Ok tt))
    | _ => let m := if list_eq (m_obs m) (m_copy m) then m else set_cache (m_obs m) m in
           call_observers (m_tuple m) m
    end.
  (** big/state.py:235-243 *)
  Definition finish (new : nat) (m : mgr M) : mgr M * outcome :=
    let m := emit ECommit (set_next None (set_state (Some new) m)) in
    match e_enter E new with
    | None => (m, Fin (Ok tt))
    | Some p => run p (emit (EEnter new (m_state m) (m_next m)) m)
    end.
  (** an exception raised by on_exit or an observer leaves the setter there and then *)
  Definition and_then (r : mgr M * outcome) (k : mgr M -> mgr M * outcome) : mgr M * outcome :=
    match r with
    | (m, Fin (Ok _)) => k m
    | (m, Fin (Err e)) => (emit EFail m, Fin (Err e))
    | (m, Timeout) => (m, Timeout)
    end.

  (** big/state.py:195-243 the state setter *)
  Definition assign (s : option nat) (m : mgr M) : mgr M * outcome :=
    if negb (e_class E s) then (emit (EReject s TypeError) m, Fin (Err TypeError))
    else match s with
    | None => (emit (EReject s ValueError) m, Fin (Err ValueError))
    | Some new =>
        match m_next m with
        | Some _ => (emit (EReject s TransitionError) m, Fin (Err TransitionError))
        | None =>
            if state_is m new then (emit (EReject s TransitionError) m, Fin (Err TransitionError))
            else
              let m := set_next (Some new) (emit (EStart new) m) in
              and_then (call_exit m) (fun m =>
              and_then (notify_observers m) (fun m =>
              finish new m))
        end
    end.
End Sem.

(** Running a program; [depth] bounds how deeply callbacks nest. *)
Fixpoint exec {M} (E : env M) (depth : nat) (p : prog M) (m : mgr M) : mgr M * outcome :=
  match depth with
  | O => (m, Timeout)
  | S d =>
      (fix go (p : prog M) (m : mgr M) : mgr M * outcome :=
        match p with
        | Ret r => (m, Fin r)
        | ReadState k => go (k (m_state m)) (emit (EReadState (m_state m)) m)
        | ReadNext k => go (k (m_next m)) (emit (EReadNext (m_next m)) m)
        | ReadObs k => go (k (m_obs m)) m
        | WriteObs l k => go k (emit (EWriteObs l) (set_obs l m))
        | Assign s k =>
            match assign E (exec E d) s m with
            | (m', Fin r) => go (k r) m'
            | (m', Timeout) => (m', Timeout)
            end
        | ReadMem k => go (k (m_mem m)) m
        | WriteMem x k => go k (set_mem x m)
        end) p m
  end.

(** big/state.py:259-284 __init__ for valid on_enter/on_exit/state_class arguments: a
    manager with nothing set, then "self.state = state", then the user's program [p]. *)
Definition fresh {M} (mem : M) : mgr M := mkM None None [] [] [] mem [].
Definition session {M} (E : env M) (depth : nat) (init : option nat) (p : result unit -> prog M) (mem : M)
  : mgr M * outcome := exec E depth (Assign init p) (fresh mem).
(** the trace of a session, oldest event first *)
Definition trace {M} (r : mgr M * outcome) : list event := rev (m_trace (fst r)).
