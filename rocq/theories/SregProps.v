(** Property C124: the Scheduler with any Regulator and any times. *)
From Verif Require Import PyBase PyBaseProof HeapModel HeapProof SregModel SregSpec SregProof SregProof2 SregModel2.

Section Props.
  Context {T N I P O : Type} (K : clockwork T N I) (p_lt p_gt : P -> P -> bool).
  Notation event := (event T P O). Notation deed := (deed T N I P O). Notation block := (block T N P O).
  Notation run := (run (O := O) K p_lt p_gt).

  Lemma authentic_app bs b : authentic K p_lt p_gt (bs ++ [b]) -> authentic K p_lt p_gt bs /\ genuine (run bs) b.
  Proof.
    intros A. split.
    - intros l1 e l2 -> Z. apply (A l1 e (l2 ++ [b])); auto. now rewrite <- app_assoc.
    - destruct b; cbn [genuine]; auto. intros Z. now apply (A bs e []).
  Qed.
  Lemma run_snoc bs b : run (bs ++ [b]) = step K p_lt p_gt (run bs) b.
  Proof. unfold SregModel.run. rewrite fold_left_app. reflexivity. Qed.
  Lemma run_inv bs : authentic K p_lt p_gt bs -> inv (run bs) /\ Forall2 (answers K) bs (r_log (run bs)).
  Proof.
    induction bs as [|b bs IH] using rev_ind; intros A.
    - split; [|constructor]. split; cbn; auto; try reflexivity. intros e [].
    - apply authentic_app in A as (A & G). destruct (IH A) as (V & F). rewrite run_snoc. destruct (step_inv K p_lt p_gt _ b V G) as (V' & d & L & X).
      split; auto. rewrite L. apply Forall2_app; auto.
  Qed.
  (** Whatever the operations on times do: every call does one thing, the one it is for, and events are neither lost nor duplicated. *)
  Theorem C124_any_times bs : authentic K p_lt p_gt bs -> let s := run bs in
    Forall2 (answers K) bs (r_log s) /\ NoDup (scheduled (r_log s)) /\
    Permutation (scheduled (r_log s)) (heap_queue (event_lt K p_lt p_gt) (r_heap s) ++ yielded (r_log s) ++ cancelled (r_log s)) /\
    (forall e, In e (heap_queue (event_lt K p_lt p_gt) (r_heap s)) <-> pending (r_log s) e).
  Proof.
    intros A s. destruct (run_inv bs A) as (V & F). fold s in V, F. assert (Q : Permutation (heap_queue (event_lt K p_lt p_gt) (r_heap s)) (h_queue (r_heap s))) by apply sort_perm.
    split; auto. split; [now apply SregProof.nodup|]. split.
    - rewrite Q. now apply i_perm.
    - intros e. rewrite pending_queue by auto. split; apply Permutation_in; auto. now symmetry.
  Qed.
  (** If they are consistent in the way of numbers: whatever the regulator's now() returns, and whenever its sleep() does, events come in order and never early;
      next() sleeps exactly when nothing is due, for the time left until the first event; cancel, bool, queue and StopIteration are right. *)
  Theorem C124_history due bs : consistent K p_lt p_gt due -> authentic K p_lt p_gt bs ->
    forall l1 d l2, r_log (run bs) = l1 ++ d :: l2 -> good K p_lt due l1 d.
  Proof.
    intros C. enough (G : authentic K p_lt p_gt bs -> is_heap (event_lt K p_lt p_gt) (h_queue (r_heap (run bs))) /\ forall l1 d l2, r_log (run bs) = l1 ++ d :: l2 -> good K p_lt due l1 d) by (intros A; now apply G).
    induction bs as [|b bs IH] using rev_ind; intros A.
    - split; [intros x j Hj; cbn in Hj; lia|]. intros [|a0 l0] d l2 E; discriminate.
    - apply authentic_app in A as (A & G). destruct (IH A) as (H & B). destruct (run_inv bs A) as (V & _). rewrite run_snoc. split; [now apply (step_heap K p_lt p_gt due C)|].
      destruct (step_good K p_lt p_gt due C _ b V H G) as (d0 & L & X). rewrite L. intros l1 d l2 E.
      destruct (@exists_last _ (d :: l2)) as (l3 & d1 & E2); [discriminate|]. rewrite E2, app_assoc in E. apply app_inj_tail in E as (E & <-).
      destruct l3 as [|x l3].
      + injection E2 as -> _. rewrite app_nil_r in E. now rewrite <- E.
      + injection E2 as <- _. eapply B. exact E.
  Qed.
End Props.

(** The times in use are consistent: floats (finite or infinite times, finite clock) with the priorities ordered as numbers ... *)
Definition float_due (t : ftime) (n : fnow) : Prop := SFleb (proj1_sig t) (proj1_sig n) = true.
Lemma Z_orderly : orderly Z.ltb (fun a b => Z.ltb b a).
Proof.
  split; [|reflexivity]. split; [apply Z.ltb_irrefl|]. split; intros a b; [rewrite Z.ltb_lt, Z.ltb_ge; lia|]. intros c. rewrite !Z.ltb_ge. lia.
Qed.
Theorem C124_floats : consistent floats Z.ltb (fun a b => Z.ltb b a) float_due.
Proof.
  assert (LT : forall a b : ftime, t_lt floats a b = Z.ltb (value (proj1_sig a)) (value (proj1_sig b))).
  { intros [x X] [y Y]. cbn. apply andb_true_iff in X as (X1 & X2), Y as (Y1 & Y2). unfold SFltb. rewrite compare_value; [|exact X1|exact Y1|intros ->; discriminate|intros ->; discriminate]. reflexivity. }
  assert (DUE : forall (t : ftime) (n : fnow), float_due t n <-> (value (proj1_sig t) <= value (proj1_sig n))%Z).
  { intros [x X] [y Y]. unfold float_due. cbn. apply andb_true_iff in X as (X1 & X2), Y as (Y1 & Y2). unfold SFleb. rewrite compare_value; [|exact X1|exact Y1|intros ->; discriminate|intros ->; discriminate].
    unfold Z.le. destruct (_ ?= _)%Z; intuition congruence. }
  split; [|split; [apply Z_orderly|split]].
  - split; [|reflexivity]. split; [intros a; rewrite LT; apply Z.ltb_irrefl|]. split; intros a b; rewrite !LT; [rewrite Z.ltb_lt, Z.ltb_ge; lia|]. intros c. rewrite !LT, !Z.ltb_ge. lia.
  - intros t n. rewrite DUE. destruct t as [x X], n as [y Y]. cbn. apply andb_true_iff in X as (X1 & X2), Y as (Y1 & Y2). rewrite sub_le0; [apply Z.leb_le|exact X1|exact Y1|intros ->; discriminate|exact Y2].
  - intros t u n. rewrite LT, !DUE, Z.ltb_ge. lia.
Qed.
(** ... and ints. *)
Definition ints : clockwork Z Z Z := mkClockwork _ _ _ Z.ltb (fun a b => Z.ltb b a) Z.add Z.sub (fun d => Z.leb d 0).
Theorem C124_ints : consistent ints Z.ltb (fun a b => Z.ltb b a) Z.le.
Proof.
  split; [apply Z_orderly|]. split; [apply Z_orderly|]. split; cbn.
  - intros t n. rewrite Z.leb_le. lia.
  - intros t u n. rewrite Z.ltb_ge. lia.
Qed.
(** One event at NaN, and an event that is due is not yielded: next() sleeps. *)
Definition f1 : spec_float := S754_finite false 4503599627370496 (-52).
Definition f5 : spec_float := S754_finite false 5629499534213120 (-50).
Theorem C124_nan_refuted : exists bs e n d,
  let s := run (O := unit) all_floats Z.ltb (fun a b => Z.ltb b a) bs in
  r_log s = [Scheduled d; Scheduled e; Sleeps 0 n S754_nan] /\ pending (r_log s) e /\ SFleb (v_time e) n = true /\ valid_binary 53 1024 n = true /\ valid_binary 53 1024 (v_time e) = true.
Proof.
  exists [Schedule tt S754_nan None 100%Z; Schedule tt f1 None 100%Z; Round 0 true f5]. eexists _, f5, _. cbn zeta. split; [vm_compute; reflexivity|].
  split; [|repeat split; vm_compute; reflexivity]. split; [vm_compute; right; left; reflexivity|]. split; vm_compute; tauto.
Qed.

(** Non-vacuity: two events, one cancelled, a sleep that returns early *)
Definition demo : list (block Z Z Z Z) :=
  [Schedule 7 5 None 100; Round 0 true 0; Schedule 8 2 (Some 1) 100; Round 0 true 1; Round 0 true 3; Cancel (mkEvent 0 7 5 100 1); Round 0 true 4]%Z.
Example C124_witness : authentic ints Z.ltb (fun a b => Z.ltb b a) demo /\
  r_log (run ints Z.ltb (fun a b => Z.ltb b a) demo) =
    (let e1 := mkEvent 0 7 5 100 1 in let e2 := mkEvent 0 8 3 100 2 in
     [Scheduled e1; Sleeps 0 0 5; Scheduled e2; Sleeps 0 1 2; Yields 0 e2 3; Cancelled e1; Stops 0 None])%Z.
Proof.
  split; [|vm_compute; reflexivity]. intros l1 e l2 E _.
  assert (G : l1 = firstn (length l1) demo /\ nth_error demo (length l1) = Some (Cancel e)) by (rewrite E, firstn_app, firstn_all, Nat.sub_diag, nth_error_app2, Nat.sub_diag by lia; cbn; now rewrite app_nil_r).
  destruct G as (G1 & G2). destruct (length l1) as [|[|[|[|[|[|[|n]]]]]]]; try discriminate G2.
  - injection G2 as <-. rewrite G1. vm_compute. auto.
  - destruct n; discriminate G2.
Qed.
(** a float schedule: relative times are rounded sums, and the schedule of the example above is yielded in order *)
Example C124_witness_floats : exists (t : ftime) (n : fnow), proj1_sig t = f5 /\ proj1_sig n = f1 /\ ~ float_due t n /\ t_sub floats t n = S754_finite false 4503599627370496 (-50).
Proof. exists (exist (fun x => is_time x = true) f5 eq_refl), (exist (fun x => is_now x = true) f1 eq_refl). repeat split; vm_compute; congruence. Qed.

Print Assumptions C124_any_times.
Print Assumptions C124_history.
Print Assumptions C124_floats.
Print Assumptions C124_ints.
Print Assumptions C124_nan_refuted.
