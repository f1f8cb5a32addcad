(** What accessor and dispatch promise: a program that uses them can be rewritten, as the
    documentation says, to use the state manager directly - and nothing changes. *)
From Verif Require Export AccessModel.

Section Rewrite.
  Context {V A M : Type}.
  (** "self.state_manager" and then: go on with the object, or with the exception *)
  Definition with_manager {X} (sm : name) (go : V -> prog V A M) (k : result X -> prog V A M) : prog V A M :=
    Get sm (fun r => match r with Ok i => go i | Err e => k (Err e) end).
  (** self.attribute becomes self.state_manager.state, and the same for assignments *)
  Fixpoint without_accessor (attribute sm : name) (p : prog V A M) : prog V A M :=
    let rw := without_accessor attribute sm in
    match p with
    | Done r => Done r
    | Get n k => if str_eqb n attribute then with_manager sm (fun i => GetOf i (u "state") (fun r => rw (k r))) (fun r => rw (k r))
                 else Get n (fun r => rw (k r))
    | Set_ n v k => if str_eqb n attribute then with_manager sm (fun i => SetOf i (u "state") v (fun r => rw (k r))) (fun r => rw (k r))
                    else Set_ n v (fun r => rw (k r))
    | Call n args k =>
        if str_eqb n attribute then
          with_manager sm (fun i => GetOf i (u "state") (fun r => match r with
            | Ok f => CallOf f args (fun r => rw (k r))
            | Err e => rw (k (Err e)) end)) (fun r => rw (k r))
        else Call n args (fun r => rw (k r))
    | GetOf o n k => GetOf o n (fun r => rw (k r))
    | SetOf o n v k => SetOf o n v (fun r => rw (k r))
    | CallOf o args k => CallOf o args (fun r => rw (k r))
    | Act f k => Act f (fun w => rw (k w))
    end.
  (** self.event(args) becomes self.state_manager.state.<prefix>event<suffix>(args) *)
  Fixpoint without_dispatch (event sm prefix suffix : name) (p : prog V A M) : prog V A M :=
    let rw := without_dispatch event sm prefix suffix in
    match p with
    | Done r => Done r
    | Get n k => Get n (fun r => rw (k r))
    | Set_ n v k => Set_ n v (fun r => rw (k r))
    | Call n args k =>
        if str_eqb n event then
          with_manager sm (fun i => GetOf i (u "state") (fun r => match r with
            | Ok st => GetOf st (prefix ++ event ++ suffix) (fun r => match r with
                | Ok method => CallOf method args (fun r => rw (k r))
                | Err e => rw (k (Err e)) end)
            | Err e => rw (k (Err e)) end)) (fun r => rw (k r))
        else Call n args (fun r => rw (k r))
    | GetOf o n k => GetOf o n (fun r => rw (k r))
    | SetOf o n v k => SetOf o n v (fun r => rw (k r))
    | CallOf o args k => CallOf o args (fun r => rw (k r))
    | Act f k => Act f (fun w => rw (k w))
    end.
  (** nothing the class already has is an accessor or a dispatched event that goes through self.[n] *)
  Definition unused (n : name) (cls : class V) : Prop :=
    forall k, lookup k cls <> Some (Property n) /\ forall prefix suffix f, lookup k cls <> Some (Dispatcher n prefix suffix f).
  (** self.[n] is not itself an accessor *)
  Definition ordinary (n : name) (cls : class V) : Prop := forall sm, lookup n cls <> Some (Property sm).
  (** self.__dict__ has no entry [event] (which would hide the method) whenever the run of the program calls self.event(..) *)
  Fixpoint unhidden (Ob : objects V A M) (cls : class V) (event : name) (fuel : nat) (p : prog V A M) (w : world V M) : Prop :=
    let go := unhidden Ob cls event fuel in
    match p with
    | Done r => True
    | Get n k => let (w', r) := self_get Ob cls fuel n w in go (k r) w'
    | Set_ n v k => let (w', r) := self_set Ob cls fuel n v w in go (k r) w'
    | Call n args k => (n = event -> ~ In event (map fst (fst w))) /\ let (w', r) := self_call Ob cls fuel n args w in go (k r) w'
    | GetOf o n k => let (w', r) := o_get Ob o n w in go (k r) w'
    | SetOf o n v k => let (w', r) := o_set Ob o n v w in go (k r) w'
    | CallOf o args k => let (w', r) := o_call Ob o args w in go (k r) w'
    | Act f k => go (k (f w)) (f w)
    end.
End Rewrite.
