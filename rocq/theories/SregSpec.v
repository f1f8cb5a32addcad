(** What the Scheduler owes to its users whatever its Regulator (C124), over the history of what it did. *)
From Verif Require Export SregModel.

Section Spec.
  Context {T N I P O : Type} (K : clockwork T N I) (p_lt p_gt : P -> P -> bool).
  Notation event := (event T P O). Notation deed := (deed T N I P O). Notation block := (block T N P O).

  (** "These operations must be consistent in the same way they are for number objects": < is a linear order, > its converse (equal times need not be the same
      object); t - now <= 0 says whether t is not later than now, and what is not later than something else that is due is due. *)
  Definition orderly {A} (lt gt : A -> A -> bool) : Prop := strict_weak lt /\ forall a b, gt a b = lt b a.
  Definition consistent (due : T -> N -> Prop) : Prop :=
    orderly (t_lt K) (t_gt K) /\ orderly p_lt p_gt /\
    (forall t n, i_le0 K (t_sub K t n) = true <-> due t n) /\
    (forall t u n, t_lt K u t = false -> due u n -> due t n).

  Definition scheduled (l : list deed) : list event := flat_map (fun d => match d with Scheduled e => [e] | _ => [] end) l.
  Definition yielded (l : list deed) : list event := flat_map (fun d => match d with Yields _ e _ => [e] | _ => [] end) l.
  Definition cancelled (l : list deed) : list event := flat_map (fun d => match d with Cancelled e => [e] | _ => [] end) l.
  Definition pending (l : list deed) (e : event) : Prop := In e (scheduled l) /\ ~ In e (yielded l) /\ ~ In e (cancelled l).
  Definition scheduled_before (l : list deed) (e1 e2 : event) : Prop := exists l1 l2 l3, scheduled l = l1 ++ e1 :: l2 ++ e2 :: l3.
  (** time, then priority, then order of scheduling *)
  Definition comes_first (l : list deed) (e1 e2 : event) : Prop :=
    t_lt K (v_time e1) (v_time e2) = true \/
    t_lt K (v_time e2) (v_time e1) = false /\
      (p_lt (v_priority e1) (v_priority e2) = true \/ p_lt (v_priority e2) (v_priority e1) = false /\ scheduled_before l e1 e2).
  Definition first (l : list deed) (e : event) : Prop := pending l e /\ forall e', pending l e' -> e' <> e -> comes_first l e e'.

  (** what may be done after the history l *)
  Definition good (due : T -> N -> Prop) (l : list deed) (d : deed) : Prop :=
    match d with
    | Scheduled e => ~ In e (scheduled l)
    | Cancelled e => pending l e
    | CancelRaises e => ~ pending l e
    | Yields _ e now => first l e /\ due (v_time e) now
    | Stops _ None => forall e, ~ pending l e
    | Stops _ (Some now) => (exists e, pending l e) /\ forall e, pending l e -> ~ due (v_time e) now
    | Sleeps _ now interval => (forall e, pending l e -> ~ due (v_time e) now) /\ exists e, first l e /\ interval = t_sub K (v_time e) now
    | IsBool b => b = true <-> exists e, pending l e
    | IsQueue q => NoDup q /\ (forall e, In e q <-> pending l e) /\ StronglySorted (comes_first l) q
    end.
  (** each block does one thing, and what it was asked for *)
  Definition answers (b : block) (d : deed) : Prop :=
    match b with
    | Schedule o time None priority => exists e, d = Scheduled e /\ v_object e = o /\ v_time e = time /\ v_priority e = priority
    | Schedule o time (Some now) priority => exists e, d = Scheduled e /\ v_object e = o /\ v_time e = t_add K time now /\ v_priority e = priority
    | Cancel e => d = Cancelled e \/ d = CancelRaises e
    | Round who blocking now => (exists e, d = Yields who e now) \/ d = Stops who None \/ (if blocking : bool then exists i, d = Sleeps who now i else d = Stops who (Some now))
    | AskBool => exists b, d = IsBool b
    | AskQueue => exists q, d = IsQueue q
    end.
  (** An Event object comes from a schedule() of this scheduler, or belongs to another one. *)
  Definition authentic (bs : list block) : Prop :=
    forall l1 e l2, bs = l1 ++ Cancel e :: l2 -> v_owner e = 0 -> In e (scheduled (r_log (run K p_lt p_gt l1))).
End Spec.
