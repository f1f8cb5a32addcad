(** C134: the Scheduler replaces Python's sched.scheduler. *)
From Verif Require Import SchedlibProof SregProof2 SregModel2 SregProps.
From Verif Require Export SchedlibModel.
From Coq Require Import Floats.SpecFloat.

Section Props.
  Context {T N I P O : Type} (K : clockwork T N I) (p_lt p_gt : P -> P -> bool) (L : sched_ops T N P O).
  Context (program : list (obs T N I P O) -> move T P O) (clock : list (obs T N I P O) -> N).

  (** Whatever the program does from its main part, from actions and from its delay function, however deeply runs are nested and whatever is raised: after every number
      of steps it has observed the same with big's Scheduler as with sched.scheduler -- events entered, clock readings, actions called, delays, exceptions, answers --
      but for the call delayfunc(0) and the deadline that run(blocking=False) returns. *)
  Theorem C134_replaces_sched_partial : alike_ops K p_lt p_gt L -> own_events program -> queue_unused program -> quiet_delays K p_lt L program clock ->
    forall n, b_trace (big_run K p_lt p_gt program clock n) = erase (s_trace (sched_run K p_lt L program clock n)) /\
              b_over (big_run K p_lt p_gt program clock n) = s_over (sched_run K p_lt L program clock n).
  Proof.
    intros A OWN Q QD n. destruct (alike_run K p_lt p_gt L program clock A OWN (or_introl Q) QD n) as ((A1 & A2 & _) & _). auto.
  Qed.
  (** The property queue also gives the same list, if the times and the priorities are ordered as numbers are. *)
  Theorem C134_replaces_sched_with_queue_partial : alike_ops K p_lt p_gt L -> orderly (t_lt K) (t_gt K) -> orderly p_lt p_gt ->
    own_events program -> quiet_delays K p_lt L program clock ->
    forall n, b_trace (big_run K p_lt p_gt program clock n) = erase (s_trace (sched_run K p_lt L program clock n)) /\
              b_over (big_run K p_lt p_gt program clock n) = s_over (sched_run K p_lt L program clock n).
  Proof.
    intros A O1 O2 OWN QD n. destruct (alike_run K p_lt p_gt L program clock A OWN (or_intror (conj O1 O2)) QD n) as ((A1 & A2 & _) & _). auto.
  Qed.
End Props.

(** ints, and floats without NaN *)
Definition int_ops : sched_ops Z Z Z Z := mkSchedOps Z.eqb Z.eqb Z.eqb (fun t n => Z.ltb n t).
Lemma Z_eq_ops a b : Z.eqb a b = negb (Z.ltb a b || Z.ltb b a).
Proof. destruct (Z.eqb_spec a b), (Z.ltb_spec a b), (Z.ltb_spec b a); cbn; auto; lia. Qed.
Theorem C134_ints : alike_ops ints Z.ltb (fun a b => Z.ltb b a) int_ops.
Proof.
  split; [apply Z_eq_ops|]. split; [apply Z_eq_ops|]. cbn. intros t n. destruct (Z.ltb_spec n t), (Z.leb_spec (t - n) 0); cbn; auto; lia.
Qed.
Definition float_ops {O} (o_eq : O -> O -> bool) : sched_ops ftime fnow Z O :=
  mkSchedOps (fun a b => SFeqb (proj1_sig a) (proj1_sig b)) Z.eqb o_eq (fun t n => SFltb (proj1_sig n) (proj1_sig t)).
Theorem C134_floats {O} (o_eq : O -> O -> bool) : alike_ops floats Z.ltb (fun a b => Z.ltb b a) (float_ops o_eq).
Proof.
  split; [|split; [apply Z_eq_ops|]].
  - intros [x X] [y Y]. cbn. apply andb_true_iff in X as (X1 & X2), Y as (Y1 & Y2). unfold SFeqb, SFltb.
    rewrite !compare_value; [|exact Y1|exact X1|intros ->; discriminate|intros ->; discriminate|exact X1|exact Y1|intros ->; discriminate|intros ->; discriminate].
    rewrite (Z.compare_antisym (value x) (value y)). now destruct (Z.compare (value x) (value y)).
  - intros [x X] [y Y]. cbn. apply andb_true_iff in X as (X1 & X2), Y as (Y1 & Y2).
    assert (NX : x <> S754_nan) by (intros ->; discriminate). rewrite (sub_le0 x y X1 Y1 NX Y2).
    unfold SFltb. rewrite compare_value; [|exact Y1|exact X1|intros ->; discriminate|exact NX]. unfold Z.leb. rewrite (Z.compare_antisym (value x) (value y)).
    now destruct (Z.compare (value x) (value y)).
Qed.

(** *** Where they differ.  A program that makes the given moves one after the other, whatever it observes. *)
Definition script {T N I P O} (l : list (Z * move T P O)) (h : list (obs T N I P O)) : move T P O :=
  match find (fun m => fst m =? Z.of_nat (length h))%Z l with Some m => snd m | None => Return end.
Notation sched_ints l n := (sched_run ints Z.ltb int_ops (script l) (fun _ => 0%Z) n).
Notation big_ints l n := (big_run ints Z.ltb (fun a b => Z.ltb b a) (script l) (fun _ => 0%Z) n).

(** sched calls delayfunc(0) after an action, and its run(blocking=False) returns the deadline of the next event; big does neither. *)
Theorem C134_identical_refuted : exists l n,
  s_trace (sched_ints l n) = [Entered (mkItem 0 1 0 7); Entered (mkItem 5 1 1 8); Clock 0; Act 7; DelayZero; Clock 0; RunReturns (Some 5); Over None]%Z /\
  b_trace (big_ints l n) = [Entered (mkItem 0 1 0 7); Entered (mkItem 5 1 1 8); Clock 0; Act 7; Clock 0; RunReturns None; Over None]%Z.
Proof. exists [(0, EnterAbs 0 1 7); (1, EnterAbs 5 1 8); (2, Run false)]%Z, 5%nat. split; vm_compute; reflexivity. Qed.
(** An event of another scheduler: sched takes one that has the same fields for its own and cancels it; big raises ValueError. *)
Theorem C134_other_event_refuted : exists l n,
  s_trace (sched_ints l n) = [Entered (mkItem 5 1 0 7); CancelOk; IsEmpty true]%Z /\
  b_trace (big_ints l n) = [Entered (mkItem 5 1 0 7); CancelValueError; IsEmpty false]%Z.
Proof. exists [(0, EnterAbs 5 1 7); (1, CancelOther (mkItem 5 1 0 7)); (2, AskEmpty)]%Z, 3%nat. split; vm_compute; reflexivity. Qed.
(** A delay function that raises StopIteration: run raises it; the for statement over big's iterator just ends, with the event still scheduled. *)
Theorem C134_stop_iteration_refuted : exists l n,
  s_trace (sched_ints l n) = [Entered (mkItem 5 1 0 7); Clock 0; Delay 5; RunRaises true; IsEmpty false]%Z /\
  b_trace (big_ints l n) = [Entered (mkItem 5 1 0 7); Clock 0; Delay 5; RunReturns None; IsEmpty false]%Z.
Proof. exists [(0, EnterAbs 5 1 7); (1, Run true); (3, Raise true); (4, AskEmpty)]%Z, 4%nat. split; vm_compute; reflexivity. Qed.
(** A time that is not a number: for sched nan > now is false, so the event is due; for big nan - now <= 0 is false, so it is not. *)
Definition all_float_ops : sched_ops spec_float spec_float Z Z := mkSchedOps SFeqb Z.eqb Z.eqb (fun t n => SFltb n t).
Theorem C134_nan_refuted : exists l n,
  s_trace (sched_run all_floats Z.ltb all_float_ops (script l) (fun _ => f1) n) = [Entered (mkItem S754_nan 1%Z 0 7%Z); Clock f1; Act 7%Z] /\
  b_trace (big_run all_floats Z.ltb (fun a b => Z.ltb b a) (script l) (fun _ => f1) n) = [Entered (mkItem S754_nan 1%Z 0 7%Z); Clock f1; Delay S754_nan].
Proof. exists [(0%Z, EnterAbs S754_nan 1%Z 7%Z); (1%Z, Run true)], 2%nat. split; vm_compute; reflexivity. Qed.

(** Non-vacuity: an action enters an event, cancels another, runs the rest itself and raises; the delay function enters an event that comes first *)
Definition busy : list (Z * move Z Z Z) :=
  [(0, Enter 5 1 7); (2, EnterAbs 5 0 8); (3, EnterAbs 9 1 9); (4, Run true); (6, EnterAbs 1 1 10); (9, Return); (11, CancelNumber 2); (12, EnterAbs 0 1 11); (13, AskTheQueue);
   (14, Run false); (16, Return); (18, Raise false); (19, Raise false); (20, AskEmpty)]%Z.
Definition busy_clock {T N P O} (h : list (obs T N Z P O)) : Z := Z.of_nat (length (filter (fun o => match o with Delay _ => true | _ => false end) h)) * 3.
Lemma script_moves {T N I P O} (l : list (Z * move T P O)) (h : list (obs T N I P O)) : script l h = Return \/ In (script l h) (map snd l).
Proof. unfold script. destruct (find _ l) as [m|] eqn:E; auto. apply find_some in E as (E & _). right. now apply in_map. Qed.
Example C134_witness :
  own_events (N := Z) (I := Z) (script busy) /\ quiet_delays ints Z.ltb int_ops (script busy) busy_clock /\ orderly (t_lt ints) (t_gt ints) /\
  b_trace (big_run ints Z.ltb (fun a b => Z.ltb b a) (script busy) busy_clock 16) =
  [Clock 0; Entered (mkItem 5 1 0 7); Entered (mkItem 5 0 1 8); Entered (mkItem 9 1 2 9); Clock 0; Delay 5; Entered (mkItem 1 1 3 10); Clock 3; Act 10; Clock 3; Delay 2; CancelOk;
   Entered (mkItem 0 1 4 11); QueueIs [mkItem 0 1 4 11; mkItem 5 0 1 8; mkItem 5 1 0 7]; Clock 6; Act 11; Clock 6; Act 8; RunRaises false; RunRaises false; IsEmpty false; Over None]%Z.
Proof.
  split; [|split; [|split; [apply C124_ints|vm_compute; reflexivity]]].
  - intros h e E. destruct (script_moves busy h) as [F|F]; [congruence|]. rewrite E in F. cbn in F. repeat (destruct F as [F|F]; [discriminate|]). exact F.
  - intros n k _ E. destruct (script_moves busy (erase (s_trace (sched_run ints Z.ltb int_ops (script busy) busy_clock n)))) as [F|F]; [congruence|]. rewrite E in F. cbn in F.
    repeat (destruct F as [F|F]; [discriminate|]). exact F.
Qed.

Print Assumptions C134_replaces_sched_partial.
Print Assumptions C134_replaces_sched_with_queue_partial.
Print Assumptions C134_ints.
Print Assumptions C134_floats.
Print Assumptions C134_identical_refuted.
Print Assumptions C134_other_event_refuted.
Print Assumptions C134_stop_iteration_refuted.
Print Assumptions C134_nan_refuted.
