(** The documented protocol of StateManager (big/state.py:84-178), as a checker that reads
    a trace one event at a time, oldest first.  It knows the current state, the registered
    observers and how far the transition in progress is. *)
From Verif Require Import PyBase StateModel.

Inductive phase :=
| Idle                               (* no transition; next is None *)
| ToExit (new : nat)                 (* accepted; on_exit of the old state comes next *)
| InExit (new : nat)                 (* on_exit is running *)
| NoExit (new : nat)                 (* accepted, and the old state has no on_exit *)
| InObs (new : nat) (todo : list nat) (* an observer is running; [todo] still to be called *)
| ToEnter (new : nat)                (* the state has changed; on_enter comes next *)
| Wedged (new : nat).                (* on_exit or an observer raised: next is still set *)

Record conf := mkC { c_state : option nat; c_obs : list nat; c_phase : phase }.

Section Protocol.
  Context {M : Type} (E : env M).
  Definition has {A} (o : option A) : bool := match o with Some _ => true | None => false end.
  Definition has_exit (s : option nat) : bool := match s with Some s => has (e_exit E s) | None => false end.
  Definition same_obs (a b : nat) : bool := (a =? b) || e_oeq E a b.
  Definition oeqb (a b : option nat) : bool :=
    match a, b with Some x, Some y => x =? y | None, None => true | _, _ => false end.
  (** the value of the [next] attribute in each phase *)
  Definition next_of (p : phase) : option nat :=
    match p with Idle | ToEnter _ => None
    | ToExit n | InExit n | NoExit n | InObs n _ | Wedged n => Some n end.
  (** is user code running? (only the manager acts in the other phases) *)
  Definition user_code (p : phase) : bool :=
    match p with Idle | InExit _ | InObs _ _ | Wedged _ => true | _ => false end.
  Definition exn_eqb (a b : exn) : bool :=
    match a, b with TypeError, TypeError | ValueError, ValueError | TransitionError, TransitionError => true | _, _ => false end.
  (** why an assignment must be refused, if it must *)
  Definition refusal (c : conf) (s : option nat) : option exn :=
    if negb (e_class E s) then Some TypeError
    else match s with
         | None => Some ValueError
         | Some n => if has (next_of (c_phase c)) || oeqb (c_state c) (Some n) then Some TransitionError else None
         end.
  (** observers still to be called once on_exit is over *)
  Definition pending (c : conf) : list nat :=
    match c_phase c with InObs _ t => t | _ => c_obs c end.
  Definition observing (p : phase) : option nat :=
    match p with InExit n | NoExit n | InObs n _ => Some n | _ => None end.
  Definition goto (c : conf) (p : phase) := Some (mkC (c_state c) (c_obs c) p).

  Definition allowed (c : conf) (ev : event) : option conf :=
    match ev with
    | EReadState v => if user_code (c_phase c) && oeqb v (c_state c) then Some c else None
    | EReadNext v => if user_code (c_phase c) && oeqb v (next_of (c_phase c)) then Some c else None
    | EWriteObs l => if user_code (c_phase c) then Some (mkC (c_state c) l (c_phase c)) else None
    | EReject s e =>
        match refusal c s with
        | Some e' => if user_code (c_phase c) && exn_eqb e e' then Some c else None
        | None => None
        end
    | EStart n =>
        match c_phase c, refusal c (Some n) with
        | Idle, None => goto c (if has_exit (c_state c) then ToExit n else NoExit n)
        | _, _ => None
        end
    | EExit s st nx =>
        match c_phase c with
        | ToExit n => if oeqb (Some s) (c_state c) && oeqb st (c_state c) && oeqb nx (Some n)
                      then goto c (InExit n) else None
        | _ => None
        end
    | EObserve o st nx =>
        match observing (c_phase c), pending c with
        | Some n, o' :: t => if same_obs o' o && oeqb st (c_state c) && oeqb nx (Some n)
                             then goto c (InObs n t) else None
        | _, _ => None
        end
    | ECommit =>
        match observing (c_phase c), pending c with
        | Some n, [] => Some (mkC (Some n) (c_obs c) (if has (e_enter E n) then ToEnter n else Idle))
        | _, _ => None
        end
    | EEnter s st nx =>
        match c_phase c with
        | ToEnter n => if oeqb (Some s) (Some n) && oeqb st (Some n) && oeqb nx None then goto c Idle else None
        | _ => None
        end
    | EFail => match c_phase c with InExit n | InObs n _ => goto c (Wedged n) | _ => None end
    end.
  Fixpoint follow (c : conf) (t : list event) : option conf :=
    match t with
    | [] => Some c
    | ev :: t => match allowed c ev with Some c' => follow c' t | None => None end
    end.
  Definition start : conf := mkC None [] Idle.
End Protocol.

(** the observers called in a stretch of trace *)
Definition observed (t : list event) : list nat :=
  flat_map (fun ev => match ev with EObserve o _ _ => [o] | _ => [] end) t.
(** the observer list after a stretch of trace *)
Fixpoint registered (l : list nat) (t : list event) : list nat :=
  match t with
  | [] => l
  | EWriteObs l' :: t => registered l' t
  | _ :: t => registered l t
  end.

(** the calls the manager makes in a stretch of trace *)
Definition is_call (ev : event) : bool :=
  match ev with EExit _ _ _ | EObserve _ _ _ | EEnter _ _ _ => true | _ => false end.
Definition calls (t : list event) : list event := filter is_call t.
(** the current state after a trace: the target of the last assignment that completed *)
Fixpoint current_from (st goal : option nat) (t : list event) : option nat :=
  match t with
  | [] => st
  | EStart n :: t => current_from st (Some n) t
  | ECommit :: t => current_from goal None t
  | _ :: t => current_from st goal t
  end.
Definition current (t : list event) : option nat := current_from None None t.
(** a transition is in progress at the end of a trace *)
Definition in_transition (t : list event) (n : nat) : Prop :=
  exists t1 t2, t = t1 ++ EStart n :: t2 /\ ~ In ECommit t2 /\ (forall m, ~ In (EStart m) t2).
