(** Scheduler: draining non_blocking(), wake-ups, progress. *)
From Verif Require Import PyBase PyBaseProof HeapModel HeapSpec HeapProof SchedModel SchedSpec SchedProof.
Require Import ZifyBool ZifyNat.


Definition alldone (s : sstate) : Prop := forall e, pending (s_log s) e -> (s_clock s < e_time e)%Z.
Definition R10 (t : tid) (s0 s : sstate) : Prop := exists l,
  s_log s = s_log s0 ++ l /\ s_clock s = s_clock s0 /\ scheduled l = [] /\ cancelled l = [] /\
  (forall u d, ~ In (ASleep u d) l) /\
  (forall e, In e (yielded l) -> (e_time e <= s_clock s)%Z /\ pending (s_log s0) e) /\
  StronglySorted (comes_first (s_log s0)) (yielded l) /\
  (forall e e', In e (yielded l) -> pending (s_log s) e' -> comes_first (s_log s0) e e') /\
  match s_pc s t with
  | Idle => (exists l', l = l' ++ [ARet t RetStop]) -> alldone s
  | PNext0 false | PNext1 false | PNext2 false => True
  | PNext3 false now => now = s_clock s
  | PNext4 false ev dt => dt = (e_time ev - s_clock s)%Z
  | PNextRet1 _ | PNextRet2 _ => True
  | PNextStop1 | PNextStop2 | PNext5 false _ | PNext6 false _ => alldone s
  | _ => False
  end.

Lemma pending_app_yield l0 l e : scheduled l = [] -> cancelled l = [] ->
  (pending (l0 ++ l) e <-> pending l0 e /\ ~ In e (yielded l)).
Proof.
  intros H1 H2. unfold pending. rewrite scheduled_app, yielded_app, cancelled_app, H1, H2, !app_nil_r, in_app_iff. tauto.
Qed.
Lemma comes_first_app l0 l a b : scheduled l = [] -> comes_first (l0 ++ l) a b -> comes_first l0 a b.
Proof. unfold comes_first, scheduled_before. rewrite scheduled_app. intros ->. rewrite app_nil_r. auto. Qed.

(** a step that logs at most one action, not a yield, and keeps the clock *)
Lemma R10_quiet t s0 s s' acts : R10 t s0 s -> s_log s' = s_log s ++ acts -> s_clock s' = s_clock s ->
  forallb (quiet t) acts = true -> (forall u d, ~ In (ASleep u d) acts) ->
  match s_pc s' t with
  | Idle => (exists l', acts = l' ++ [ARet t RetStop]) -> alldone s
  | PNext0 false | PNext1 false | PNext2 false => True
  | PNext3 false now => now = s_clock s
  | PNext4 false ev dt => dt = (e_time ev - s_clock s)%Z
  | PNextRet1 _ | PNextRet2 _ => True
  | PNextStop1 | PNextStop2 | PNext5 false _ | PNext6 false _ => alldone s
  | _ => False
  end -> acts <> [] \/ s_pc s' t <> Idle -> R10 t s0 s'.
Proof.
  intros (l & H1 & H2 & H3 & H4 & H5 & H6 & H7 & H8 & H9) E1 E2 Q NS K NE.
  destruct (quiet_log _ _ Q) as (Q1 & Q2 & Q3 & _).
  assert (PE : forall e, pending (s_log s') e <-> pending (s_log s) e).
  { intros e. rewrite E1. rewrite pending_app_yield by auto. rewrite Q2. simpl. tauto. }
  assert (AE : alldone s -> alldone s').
  { intros A e He. rewrite E2. apply A, PE; auto. }
  exists (l ++ acts). rewrite E1, H1, E2, scheduled_app, cancelled_app, yielded_app, Q1, Q2, Q3, !app_nil_r.
  split; [rewrite app_assoc; auto|]. split; auto. split; auto. split; auto. split.
  { intros u d Hin. apply in_app_or in Hin. destruct Hin; [eapply H5 | eapply NS]; eauto. }
  split; auto. split; auto. split.
  { intros e e' He He'. apply H8; auto. rewrite H1. rewrite E1, H1 in PE. apply PE. exact He'. }
  destruct (s_pc s' t); auto; try (destruct b; auto).
  intros (l' & Hl'). apply AE, K. destruct acts as [|a0 acts'] using rev_ind; [destruct NE; congruence|].
  clear IHacts'. rewrite app_assoc in Hl'. apply app_inj_tail in Hl'. destruct Hl' as [_ ->]. eauto.
Qed.

Lemma R10_step c0 t s0 s m : Inv c0 s0 -> Inv c0 s -> R10 t s0 s -> drain_move t m -> R10 t s0 (sstep s m).
Proof.
  intros I0 I R M. pose proof R as R'. destruct R' as (l & H1 & H2 & H3 & H4 & H5 & H6 & H7 & H8 & H9).
  destruct I as (L & D & G & T). pose proof (d_pc _ _ D t) as Hp. unfold pcinv_of in Hp.
  pose proof (fun e => pending_iff c0 s e D) as PI.
  assert (R1 : (t =? t) = true) by apply Nat.eqb_refl.
  destruct m as [u c|u|u|d]; simpl in M; try tauto.
  - destruct c as [| |[]| |]; try tauto. subst u. simpl. destruct (s_pc s t) eqn:E; auto.
    eapply R10_quiet with (acts := [ACall t (CNext false)]); eauto; simpl; rewrite ?setpc_same, ?R1; auto.
    + intros u d [K|[]]; discriminate.
    + left; discriminate.
  - subst u. simpl. unfold tstep. destruct (s_pc s t) eqn:E; try tauto; auto; cbn [pcinv] in Hp.
    + (* PNext0 *) destruct b; [tauto|]. unfold acquire. destruct (s_lock s) eqn:El; auto.
      eapply R10_quiet with (acts := [AAcq t]); eauto; simpl; rewrite ?setpc_same, ?R1; auto.
      * intros u d [K|[]]; discriminate.
      * right; discriminate.
    + (* PNext1 *) destruct b; [tauto|]. destruct (heap_bool (s_heap s)) eqn:B.
      * eapply R10_quiet with (acts := []); eauto; simpl; rewrite ?setpc_same; auto. right; discriminate.
      * eapply R10_quiet with (acts := [AEmpty t]); eauto; simpl; rewrite ?setpc_same, ?R1; auto.
        -- intros u d [K|[]]; discriminate.
        -- intros e He. apply PI in He. unfold heap_bool in B. destruct (h_queue (s_heap s)); [destruct He|discriminate].
        -- right; discriminate.
    + (* PNext2 *) destruct b; [tauto|].
      eapply R10_quiet with (acts := [ANow t (s_clock s)]); eauto; simpl; rewrite ?setpc_same, ?R1; auto.
      * intros u d [K|[]]; discriminate.
      * right; discriminate.
    + (* PNext3 *) destruct b; [tauto|]. subst now.
      destruct (heap_getitem event_ltb (s_heap s) (IInt 0)) as [[ev|]|]; auto.
      eapply R10_quiet with (acts := []); eauto; simpl; rewrite ?setpc_same; auto. right; discriminate.
    + (* PNext4 *) destruct b; [tauto|]. subst dt.
      destruct Hp as (n & tl & Q & P1 & P2 & P3).
      pose proof (is_heap_least event_ltb event_ltb_weak _ ev tl (d_heap _ _ D) Q) as HL.
      assert (Pe : pending (s_log s) ev) by (apply PI; rewrite Q; left; auto).
      destruct (Z.leb_spec (e_time ev - s_clock s) 0) as [Hd|Hd].
      * (* yield *)
        exists (l ++ [AYield t ev]). cbn [go with_heap s_log s_clock s_pc]. rewrite setpc_same.
        rewrite scheduled_app, cancelled_app, yielded_app. cbn [scheduled cancelled yielded flat_map app]. rewrite !app_nil_r.
        split; [rewrite H1, app_assoc; auto|]. split; auto. split; auto. split; auto.
        assert (Pe0 : pending (s_log s0) ev).
        { rewrite H1 in Pe. apply pending_app_yield in Pe; tauto. }
        split. { intros u d K. apply in_app_or in K. destruct K as [K|[K|[]]]; [eapply H5; eauto|discriminate]. }
        split. { intros e K. apply in_app_or in K. destruct K as [K|[<-|[]]]; auto. split; auto. lia. }
        assert (Hfirst : forall e', pending (s_log s) e' -> e' <> ev -> comes_first (s_log s0) ev e').
        { intros e' Pe' Hn. apply comes_first_app with l; auto. rewrite <- H1. eapply ltb_first; eauto. apply HL, PI; auto. }
        split.
        { assert (F : Forall (fun e => comes_first (s_log s0) e ev) (yielded l)) by (rewrite Forall_forall; auto).
          clear -H7 F. induction H7 as [|a y S IH F']; simpl; [repeat constructor|].
          inversion F; subst. constructor; auto. apply Forall_app. split; auto. }
        split; auto.
        intros e e' He He'. rewrite pending_app_yield in He' by auto. cbn [yielded flat_map app] in He'.
        destruct He' as [He' Hne]. apply in_app_or in He. destruct He as [He|[<-|[]]]; auto.
        apply Hfirst; auto. intros ->. apply Hne. left; auto.
      * (* not due *)
        eapply R10_quiet with (acts := [ANotDue t]); eauto; simpl; rewrite ?setpc_same, ?R1; auto.
        -- intros u d [K|[]]; discriminate.
        -- intros e Pe'. apply PI in Pe'. apply HL in Pe'. unfold event_ltb in Pe'.
           destruct (Z.ltb_spec (e_time e) (e_time ev)); [discriminate|]. lia.
        -- right; discriminate.
    + unfold release. eapply R10_quiet with (acts := [ARel t]); eauto; simpl; rewrite ?setpc_same, ?R1; auto.
      * intros u d [K|[]]; discriminate.
      * right; discriminate.
    + eapply R10_quiet with (acts := [ARet t (RetObj (e_obj ev))]); eauto; simpl; rewrite ?setpc_same, ?R1; auto.
      * intros u d [K|[]]; discriminate.
      * intros (l' & Hl'). destruct l' as [|? [|]]; discriminate.
      * left; discriminate.
    + unfold release. eapply R10_quiet with (acts := [ARel t]); eauto; simpl; rewrite ?setpc_same, ?R1; auto.
      * intros u d [K|[]]; discriminate.
      * right; discriminate.
    + eapply R10_quiet with (acts := [ARet t RetStop]); eauto; simpl; rewrite ?setpc_same, ?R1; auto.
      * intros u d [K|[]]; discriminate.
      * left; discriminate.
    + destruct b; [tauto|]. unfold release. eapply R10_quiet with (acts := [ARel t]); eauto; simpl; rewrite ?setpc_same, ?R1; auto.
      * intros u d [K|[]]; discriminate.
      * right; discriminate.
    + destruct b; [tauto|]. eapply R10_quiet with (acts := [ARet t RetStop]); eauto; simpl; rewrite ?setpc_same, ?R1; auto.
      * intros u d [K|[]]; discriminate.
      * left; discriminate.
Qed.

Lemma R10_run c0 t s0 ms : Inv c0 s0 -> Forall (drain_move t) ms ->
  forall s, Inv c0 s -> R10 t s0 s -> R10 t s0 (srun s ms).
Proof.
  intros I0 F. induction F as [|m ms M F IH]; intros s I R; simpl; auto.
  apply IH; [apply Inv_step; auto|]. eapply R10_step; eauto.
Qed.

Lemma non_blocking_drain c0 ms0 t ms l :
  let s0 := srun (sinit c0) ms0 in
  let s := srun s0 ms in
  s_pc s0 t = Idle -> Forall (drain_move t) ms -> s_pc s t = Idle ->
  s_log s = s_log s0 ++ l ++ [ARet t RetStop] ->
  (forall e, In e (yielded l) <-> pending (s_log s0) e /\ (e_time e <= s_clock s0)%Z) /\
  StronglySorted (comes_first (s_log s0)) (yielded l) /\
  (forall e, pending (s_log s) e <-> pending (s_log s0) e /\ (s_clock s0 < e_time e)%Z) /\
  (forall u d, ~ In (ASleep u d) l).
Proof.
  intros s0 s Hi F Hi' Hl.
  assert (I0 : Inv c0 s0) by apply Inv_reach.
  assert (R : R10 t s0 s).
  { apply R10_run with c0; auto. exists []. rewrite app_nil_r. simpl. rewrite Hi.
    repeat split; auto; try tauto; try constructor.
    intros (l' & K). destruct l'; discriminate. }
  destruct R as (l1 & H1 & H2 & H3 & H4 & H5 & H6 & H7 & H8 & H9).
  assert (l1 = l ++ [ARet t RetStop]) as -> by (rewrite H1 in Hl; apply app_inv_head in Hl; auto).
  rewrite Hi' in H9. specialize (H9 (ex_intro _ l eq_refl)).
  rewrite scheduled_app, cancelled_app, yielded_app in *. cbn [scheduled cancelled yielded flat_map app] in *. rewrite !app_nil_r in *.
  assert (PE : forall e, pending (s_log s) e <-> pending (s_log s0) e /\ ~ In e (yielded l)).
  { intros e. rewrite H1. rewrite pending_app_yield; rewrite ?scheduled_app, ?cancelled_app; cbn [scheduled cancelled flat_map]; rewrite ?app_nil_r; auto.
    rewrite yielded_app. cbn [yielded flat_map]. rewrite app_nil_r. tauto. }
  assert (HY : forall e, In e (yielded l) <-> pending (s_log s0) e /\ (e_time e <= s_clock s0)%Z).
  { intros e. split.
    - intros He. apply H6 in He. rewrite <- H2. tauto.
    - intros [He Ht]. destruct (in_dec (fun a b => match Bool.bool_dec (event_eqb a b) true with left x => left (proj1 (event_eqb_eq a b) x) | right n => right (fun q => n (proj2 (event_eqb_eq a b) q)) end) e (yielded l)) as [|Hn]; auto.
      exfalso. assert (K : pending (s_log s) e) by (apply PE; auto). apply H9 in K. lia. }
  split; auto. split; auto. split.
  - intros e. rewrite PE, HY. split; intros [A B]; split; auto.
    + destruct (Z.ltb_spec (s_clock s0) (e_time e)); auto. exfalso. apply B; auto.
    + intros [_ K]. lia.
  - intros u d K. apply (H5 u d). apply in_or_app; auto.
Qed.

(** ** progress of the lock holder *)
Definition rank (p : pc) : nat :=
  match p with
  | PSched1 _ _ _ _ => 6 | PSched2 _ _ _ => 5 | PSched3 _ _ _ => 4 | PSched4 _ => 3 | PSched4b _ => 2 | PSched5 _ => 1
  | PCan1 _ => 4 | PCan2 => 3 | PCan2b => 2 | PCan3 => 1 | PCanErr1 => 1
  | PNext1 _ => 5 | PNext2 _ => 4 | PNext3 _ _ => 3 | PNext4 _ _ _ => 2 | PNextRet1 _ => 1 | PNextStop1 => 1 | PNext5 _ _ => 1
  | PBool1 => 2 | PBool2 _ => 1 | PQueue1 => 2 | PQueue2 _ => 1
  | _ => 0
  end.
Lemma crit_progress c0 s t : InvL s -> InvD c0 s -> crit (s_pc s t) = true ->
  s_lock (tstep s t) = None \/ (crit (s_pc (tstep s t) t) = true /\ rank (s_pc (tstep s t) t) < rank (s_pc s t)).
Proof.
  intros L D H. pose proof (d_pc _ _ D t) as Hp. unfold pcinv_of in Hp. unfold tstep.
  destruct (s_pc s t) eqn:E; try discriminate; cbn [pcinv] in Hp;
  try (left; reflexivity);
  try (right; cbn [go s_pc]; rewrite setpc_same; split; [reflexivity | simpl; lia]).
  - right. destruct absolute; cbn [go s_pc]; rewrite setpc_same; split; auto; simpl; lia.
  - right. destruct (hstep event_ltb event_eqb (s_heap s) (Remove e)) as [h [o|o]]; cbn [go with_heap s_pc]; rewrite setpc_same; split; auto; simpl; lia.
  - right. destruct (heap_bool (s_heap s)); cbn [go s_pc]; rewrite setpc_same; split; auto; simpl; lia.
  - right. destruct Hp as (Hq & _). destruct (h_queue (s_heap s)) as [|x q] eqn:Q; [congruence|].
    rewrite (getitem0 _ _ _ Q). cbn [go s_pc]; rewrite setpc_same; split; auto; simpl; lia.
  - right. destruct (dt <=? 0)%Z; cbn [go with_heap s_pc]; rewrite setpc_same; split; auto; simpl; lia.
Qed.
Lemma lock_released c0 n : forall s t, InvL s -> InvD c0 s -> crit (s_pc s t) = true -> rank (s_pc s t) <= n ->
  exists k, k <= n /\ s_lock (srun s (repeat (MStep t) k)) = None.
Proof.
  induction n as [|n IH]; intros s t L D H Hr.
  - destruct (s_pc s t); simpl in *; try lia; discriminate.
  - destruct (crit_progress c0 s t L D H) as [K|[K1 K2]].
    + exists 1. split; [lia|]. exact K.
    + destruct (IH (tstep s t) t) as (k & Hk & E); auto; [apply (InvL_sstep s (MStep t)); auto | apply (InvD_sstep c0 s (MStep t)); auto | lia |].
      exists (S k). split; [lia|]. exact E.
Qed.
Lemma lock_released_reach c0 ms t : let s := srun (sinit c0) ms in s_lock s = Some t ->
  exists k, k <= 6 /\ s_lock (srun s (repeat (MStep t) k)) = None.
Proof.
  intros s H. pose proof (Inv_reach c0 ms) as I. fold s in I. destruct I as (L & D & _). apply lock_released with c0; auto.
  - apply L. auto.
  - destruct (s_pc s t); simpl; lia.
Qed.

(** ** waking a blocked thread *)
Definition woke (p : pc) : bool := match p with PSched4b _ | PSched5 _ | PSched6 _ | PCan2b | PCan3 | PCan4 => true | _ => false end.
Definition mutated_ret (t : tid) (a : act) : Prop := match a with ARet u (RetEvent _) | ARet u RetNone => u = t | _ => False end.

Definition R11 (t u : tid) (d : Z) (s0 s : sstate) : Prop :=
  exists l w, s_log s = s_log s0 ++ l /\ s_pc s u = PWait d w /\
  (w = true \/ (woke (s_pc s t) = false /\ forall a, In a l -> ~ mutated_ret t a)).

Lemma setpc_ne f t p u : u <> t -> setpc f t p u = f u. Proof. apply setpc_other. Qed.

Lemma R11_step t u d s0 s m : t <> u -> not_by u m -> R11 t u d s0 s -> R11 t u d s0 (sstep s m).
Proof.
  intros Htu N (l & w & E1 & E2 & E3).
  (* a mover v <> u, doing [go s1 v p acts] where s1 has the same log and pcs (up to waking) *)
  assert (GO : forall v p acts s1, v <> u -> s_log s1 = s_log s ->
     ((forall x, s_pc s1 x = s_pc s x) \/ (forall x, s_pc s1 x = woken_pc (s_pc s x))) ->
     (v = t -> (woke p = false /\ (woke (s_pc s t) = false -> forall a, In a acts -> ~ mutated_ret t a)) \/ (woke p = true /\ woke (s_pc s t) = true) \/ s_pc s1 u = PWait d true) ->
     (v = t -> woke (s_pc s t) = false -> forall a, In a acts -> ~ mutated_ret t a) ->
     (v <> t -> forall a, In a acts -> ~ mutated_ret t a) ->
     R11 t u d s0 (go s1 v p acts)).
  { intros v p acts s1 Hv EL EP HP1 HP2 HP3.
    assert (Hu : exists w', s_pc s1 u = PWait d w' /\ (w = true -> w' = true)).
    { destruct EP as [EP|EP]; rewrite EP, E2; simpl; eauto. }
    destruct Hu as (w' & Hu & Hw).
    exists (l ++ acts), w'. cbn [go s_log s_pc]. rewrite EL, E1, app_assoc. split; auto.
    rewrite setpc_other by auto. split; auto.
    destruct E3 as [->|[W1 W2]]; [left; auto|].
    destruct (Nat.eq_dec v t) as [->|Hvt].
    - destruct (HP1 eq_refl) as [[K1 K2]|[[K1 K2]|K]].
      + right. rewrite setpc_same. split; auto. intros a Ha. apply in_app_or in Ha. destruct Ha as [Ha|Ha]; [apply W2; auto | apply K2; auto].
      + congruence.
      + left. congruence.
    - destruct EP as [EP|EP].
      + right. rewrite setpc_other by auto. rewrite EP. split; auto.
        intros a Ha. apply in_app_or in Ha. destruct Ha as [Ha|Ha]; [apply W2; auto | apply HP3; auto].
      + right. rewrite setpc_other by auto. rewrite EP. split; [destruct (s_pc s t); auto|].
        intros a Ha. apply in_app_or in Ha. destruct Ha as [Ha|Ha]; [apply W2; auto | apply HP3; auto]. }
  assert (SAME : R11 t u d s0 s) by (exists l, w; auto).
  destruct m as [v c|v|v|z]; simpl in N; simpl.
  - destruct (s_pc s v) eqn:Ev; auto. apply GO; auto.
    + intros ->. left. split; [destruct c; auto|]. intros _ a [<-|[]]. auto.
    + intros _ _ a [<-|[]]; auto.
    + intros _ a [<-|[]]; auto.
  - unfold tstep.
    assert (LK : forall b, R11 t u d s0 (with_lock s b) ) by (intros b; exists l, w; auto).
    destruct (s_pc s v) eqn:Ev; auto;
    try (unfold acquire; destruct (s_lock s); [exact SAME|]);
    try (unfold release);
    try (destruct (hstep event_ltb event_eqb (s_heap s) (Remove e)) as [h [o|o]]);
    try (destruct (heap_getitem event_ltb (s_heap s) (IInt 0)) as [[x|]|]; [|exact SAME|exact SAME]);
    repeat match goal with |- context [if ?c then _ else _] => lazymatch c with context [if _ then _ else _] => fail | _ => destruct c end end;
    try exact SAME;
    (apply GO; [assumption | reflexivity | first [left; reflexivity | right; reflexivity] | | | ];
      [intros ->; first
         [ left; split; [reflexivity|]; rewrite Ev; intros W a Ha; simpl in Ha; repeat destruct Ha as [<-|Ha]; try destruct Ha; simpl in W |- *; solve [tauto | discriminate]
         | right; left; split; [reflexivity | rewrite Ev; reflexivity]
         | right; right; rewrite wake_pc; cbn [with_flag s_pc]; rewrite E2; reflexivity ]
      | intros ->; rewrite Ev; intros W a Ha; simpl in Ha; repeat destruct Ha as [<-|Ha]; try destruct Ha; simpl in W |- *; solve [tauto | discriminate]
      | intros Hvt a Ha; simpl in Ha; repeat destruct Ha as [<-|Ha]; try destruct Ha; simpl; solve [tauto | congruence ] ]).
  - destruct (s_pc s v) eqn:Ev; auto.
  - destruct (0 <=? z)%Z; auto. exists (l ++ [ATick z]), w. simpl. rewrite E1, app_assoc. split; auto. split; auto.
    destruct E3 as [->|[W1 W2]]; [left; auto|right]. split; auto.
    intros a Ha. apply in_app_or in Ha. destruct Ha as [Ha|[<-|[]]]; auto.
Qed.

Lemma R11_run t u d s0 ms : t <> u -> Forall (not_by u) ms -> forall s, R11 t u d s0 s -> R11 t u d s0 (srun s ms).
Proof.
  intros H F. induction F as [|m ms M F IH]; intros s R; simpl; auto. apply IH, R11_step; auto.
Qed.

Lemma blocked_is_woken s0 t u d ms l :
  t <> u -> s_pc s0 u = PWait d false -> s_pc s0 t = Idle -> Forall (not_by u) ms ->
  let s := srun s0 ms in
  s_log s = s_log s0 ++ l ->
  (exists e, In (ARet t (RetEvent e)) l) \/ In (ARet t RetNone) l ->
  s_pc s u = PWait d true /\ s_pc (sstep s (MStep u)) u = PNext0 true.
Proof.
  intros Htu Hu Ht F s Hl Hr.
  assert (R : R11 t u d s0 s).
  { apply R11_run; auto. exists [], false. rewrite app_nil_r. split; auto. split; auto. right. rewrite Ht. split; auto. }
  destruct R as (l1 & w & E1 & E2 & E3).
  assert (l1 = l) as -> by (rewrite E1 in Hl; apply app_inv_head in Hl; auto).
  assert (w = true) as ->.
  { destruct E3 as [->|[_ W]]; auto. destruct Hr as [(e & Hr)|Hr]; apply W in Hr; simpl in Hr; tauto. }
  split; auto. simpl. unfold tstep. rewrite E2. simpl. rewrite setpc_same. auto.
Qed.

(** ** a non-blocking next() call completes, and draining terminates *)
Lemma tstep_crit_chain c0 s t : Inv c0 s -> s_pc s t = PNext0 false -> s_lock s = None ->
  exists k, k <= 7 /\ let s' := srun s (repeat (MStep t) k) in s_pc s' t = Idle /\ s_lock s' = None /\
  ((exists l, s_log s' = l ++ [ARet t RetStop]) \/
   S (length (h_queue (s_heap s'))) = length (h_queue (s_heap s))).
Proof.
  intros I E0 L0.
  assert (E1 : tstep s t = go (with_lock s (Some t)) t (PNext1 false) [AAcq t]).
  { unfold tstep. rewrite E0. unfold acquire. rewrite L0. auto. }
  set (s1 := go (with_lock s (Some t)) t (PNext1 false) [AAcq t]) in *.
  assert (I1 : Inv c0 s1) by (rewrite <- E1; apply (Inv_step c0 s (MStep t)); auto).
  assert (P1 : s_pc s1 t = PNext1 false) by (simpl; apply setpc_same).
  destruct (heap_bool (s_heap s1)) eqn:B.
  - assert (E2 : tstep s1 t = go s1 t (PNext2 false) []) by (unfold tstep; rewrite P1, B; auto).
    set (s2 := go s1 t (PNext2 false) []) in *.
    assert (P2 : s_pc s2 t = PNext2 false) by (simpl; apply setpc_same).
    assert (E3 : tstep s2 t = go s2 t (PNext3 false (s_clock s2)) [ANow t (s_clock s2)]) by (unfold tstep; rewrite P2; auto).
    set (s3 := go s2 t (PNext3 false (s_clock s2)) [ANow t (s_clock s2)]) in *.
    assert (P3 : s_pc s3 t = PNext3 false (s_clock s2)) by (simpl; apply setpc_same).
    assert (Hq : exists ev tl, h_queue (s_heap s3) = ev :: tl).
    { simpl in B |- *. unfold heap_bool in B. destruct (h_queue (s_heap s)); [discriminate|eauto]. }
    destruct Hq as (ev & tl & Q).
    assert (E4 : tstep s3 t = go s3 t (PNext4 false ev (e_time ev - s_clock s2)) []) by (unfold tstep; rewrite P3, (getitem0 _ _ _ Q); auto).
    set (s4 := go s3 t (PNext4 false ev (e_time ev - s_clock s2)) []) in *.
    assert (P4 : s_pc s4 t = PNext4 false ev (e_time ev - s_clock s2)) by (simpl; apply setpc_same).
    destruct (e_time ev - s_clock s2 <=? 0)%Z eqn:Hd.
    + assert (E5 : tstep s4 t = go (with_heap s4 (fst (hstep event_ltb event_eqb (s_heap s4) Popleft))) t (PNextRet1 ev) [AYield t ev])
        by (unfold tstep; rewrite P4, Hd; auto).
      set (s5 := go _ t (PNextRet1 ev) [AYield t ev]) in *.
      assert (P5 : s_pc s5 t = PNextRet1 ev) by (simpl; apply setpc_same).
      assert (E6 : tstep s5 t = release s5 t (PNextRet2 ev)) by (unfold tstep; rewrite P5; auto).
      assert (P6 : s_pc (release s5 t (PNextRet2 ev)) t = PNextRet2 ev) by (simpl; apply setpc_same).
      exists 7. split; [lia|]. unfold srun. cbn [repeat fold_left sstep]. rewrite E1, E2, E3, E4, E5, E6.
      unfold tstep. rewrite P6. cbn [go release with_lock s_pc s_lock s_log s_heap]. rewrite setpc_same.
      split; auto. split; auto. right.
      cbn [s5 go with_heap s_heap]. change (s_heap s4) with (s_heap s3).
      unfold hstep. rewrite Q. destruct (heappop_head ev tl) as [q Hq]. rewrite Hq. cbn [fst bump h_queue].
      change (s_heap s3) with (s_heap s) in Q. rewrite Q.
      destruct I1 as (_ & D1 & _). pose proof (d_heap _ _ D1) as HH. change (s_heap s1) with (s_heap s) in HH. rewrite Q in HH.
      pose proof (heappop_spec event_ltb event_ltb_weak _ HH) as K. rewrite Hq in K. destruct K as (_ & K & _).
      apply Permutation_length in K. simpl in *. lia.
    + assert (E5 : tstep s4 t = go s4 t (PNext5 false (e_time ev - s_clock s2)) [ANotDue t])
        by (unfold tstep; rewrite P4, Hd; auto).
      set (s5 := go s4 t (PNext5 false _) [ANotDue t]) in *.
      assert (P5 : s_pc s5 t = PNext5 false (e_time ev - s_clock s2)) by (simpl; apply setpc_same).
      assert (E6 : tstep s5 t = release s5 t (PNext6 false (e_time ev - s_clock s2))) by (unfold tstep; rewrite P5; auto).
      assert (P6 : s_pc (release s5 t (PNext6 false (e_time ev - s_clock s2))) t = PNext6 false (e_time ev - s_clock s2)) by (simpl; apply setpc_same).
      exists 7. split; [lia|]. unfold srun. cbn [repeat fold_left sstep]. rewrite E1, E2, E3, E4, E5, E6.
      unfold tstep. rewrite P6. cbn [go release with_lock s_pc s_lock s_log s_heap]. rewrite setpc_same.
      split; auto. split; auto. left. eauto.
  - assert (E2 : tstep s1 t = go s1 t PNextStop1 [AEmpty t]) by (unfold tstep; rewrite P1, B; auto).
    set (s2 := go s1 t PNextStop1 [AEmpty t]) in *.
    assert (P2 : s_pc s2 t = PNextStop1) by (simpl; apply setpc_same).
    assert (E3 : tstep s2 t = release s2 t PNextStop2) by (unfold tstep; rewrite P2; auto).
    assert (P3 : s_pc (release s2 t PNextStop2) t = PNextStop2) by (simpl; apply setpc_same).
    exists 4. split; [lia|]. unfold srun. cbn [repeat fold_left sstep]. rewrite E1, E2, E3.
    unfold tstep. rewrite P3. cbn [go release with_lock s_pc s_lock s_log s_heap]. rewrite setpc_same.
    split; auto. split; auto. left. eauto.
Qed.

Lemma drain_terminates c0 t : forall n s, length (h_queue (s_heap s)) <= n -> Inv c0 s -> s_pc s t = Idle -> s_lock s = None ->
  exists ms, Forall (drain_move t) ms /\ s_pc (srun s ms) t = Idle /\ s_lock (srun s ms) = None /\
  exists l, s_log (srun s ms) = l ++ [ARet t RetStop].
Proof.
  assert (ONE : forall s, Inv c0 s -> s_pc s t = Idle -> s_lock s = None ->
    exists ms, Forall (drain_move t) ms /\ s_pc (srun s ms) t = Idle /\ s_lock (srun s ms) = None /\ Inv c0 (srun s ms) /\
    ((exists l, s_log (srun s ms) = l ++ [ARet t RetStop]) \/
     S (length (h_queue (s_heap (srun s ms)))) = length (h_queue (s_heap s)))).
  { intros s I Hp Hl. set (s' := sstep s (MCall t (CNext false))).
    assert (I' : Inv c0 s') by (apply Inv_step; auto).
    assert (Es : s' = go s t (PNext0 false) [ACall t (CNext false)]) by (unfold s'; simpl; rewrite Hp; auto).
    destruct (tstep_crit_chain c0 s' t I') as (k & _ & K1 & K2 & K3).
    - rewrite Es. simpl. apply setpc_same.
    - rewrite Es. auto.
    - exists (MCall t (CNext false) :: repeat (MStep t) k). unfold srun in *. cbn [fold_left]. fold s'.
      split; [constructor; [simpl; auto|]; clear; induction k; constructor; simpl; auto|].
      split; auto. split; auto. split; [apply (Inv_run c0 (repeat (MStep t) k)); auto|].
      destruct K3 as [K3|K3]; [left; auto|right]. rewrite K3, Es. auto. }
  induction n as [|n IH]; intros s Hn I Hp Hl; destruct (ONE s I Hp Hl) as (ms & M1 & M2 & M3 & M4 & [M5|M5]).
  - exists ms. auto.
  - lia.
  - exists ms. auto.
  - destruct (IH (srun s ms)) as (ms' & N1 & N2 & N3 & N4); auto; [lia|].
    exists (ms ++ ms'). unfold srun in *. rewrite fold_left_app. split; [apply Forall_app; auto|]. auto.
Qed.
Lemma drain_terminates_reach c0 ms0 t : let s := srun (sinit c0) ms0 in s_pc s t = Idle -> s_lock s = None ->
  exists ms, Forall (drain_move t) ms /\ s_pc (srun s ms) t = Idle /\ s_lock (srun s ms) = None /\
  exists l, s_log (srun s ms) = l ++ [ARet t RetStop].
Proof. intros s H1 H2. eapply drain_terminates; eauto. apply Inv_reach. Qed.

(** ** the property statements *)
Lemma sched_log_ok c0 ms l1 a l2 : s_log (srun (sinit c0) ms) = l1 ++ a :: l2 -> good c0 l1 a.
Proof. apply Inv_reach. Qed.
Lemma sched_yield_order c0 ms l1 t e l2 : s_log (srun (sinit c0) ms) = l1 ++ AYield t e :: l2 ->
  pending l1 e /\ forall e', pending l1 e' -> e' <> e -> comes_first l1 e e'.
Proof. intros H. apply sched_log_ok in H. simpl in H. tauto. Qed.
Lemma sched_calls c0 ms t : s_pc (srun (sinit c0) ms) t = Idle -> calls_ok t (of_thread t (s_log (srun (sinit c0) ms))).
Proof. intros H. destruct (Inv_reach c0 ms) as (_ & _ & _ & T). specialize (T t). rewrite H in T. exact T. Qed.
Lemma sched_not_early c0 ms l1 t e l2 : s_log (srun (sinit c0) ms) = l1 ++ AYield t e :: l2 ->
  (e_time e <= clock_of c0 l1)%Z.
Proof. intros H. apply sched_log_ok in H. simpl in H. tauto. Qed.
Lemma sched_clock c0 ms l1 t v l2 : s_log (srun (sinit c0) ms) = l1 ++ ANow t v :: l2 -> v = clock_of c0 l1.
Proof. intros H. apply sched_log_ok in H. simpl in H. tauto. Qed.
Lemma sched_conservation c0 ms : let s := srun (sinit c0) ms in
  NoDup (scheduled (s_log s)) /\
  Permutation (scheduled (s_log s)) (heap_queue event_ltb (s_heap s) ++ yielded (s_log s) ++ cancelled (s_log s)) /\
  (forall e, In e (heap_queue event_ltb (s_heap s)) <-> pending (s_log s) e).
Proof.
  intros s. destruct (Inv_reach c0 ms) as (_ & D & _). fold s in D.
  destruct (heap_queue_spec event_ltb event_ltb_weak (s_heap s)) as [P _].
  split; [apply seq_nodup, D|]. split.
  - rewrite P. apply D.
  - intros e. rewrite <- (pending_iff c0 s e D). split; apply Permutation_in; auto. symmetry; auto.
Qed.
Lemma sched_cancel c0 ms l1 t e l2 :
  (s_log (srun (sinit c0) ms) = l1 ++ ACancel t e :: l2 ->
     pending l1 e /\ forall e', pending (l1 ++ [ACancel t e]) e' <-> pending l1 e' /\ e' <> e) /\
  (s_log (srun (sinit c0) ms) = l1 ++ ACancelFail t e :: l2 ->
     ~ pending l1 e /\ forall e', pending (l1 ++ [ACancelFail t e]) e' <-> pending l1 e').
Proof.
  split; intros H; apply sched_log_ok in H; simpl in H; (split; [tauto|]); intros e';
    unfold pending; rewrite scheduled_app, yielded_app, cancelled_app; cbn [scheduled yielded cancelled flat_map app]; rewrite ?app_nil_r, ?in_app_iff; simpl.
  - split.
    + intros (H1 & H2 & H3). repeat split; auto.
    + intros ((H1 & H2 & H3) & H4). repeat split; auto. intros [K|[K|[]]]; auto.
  - tauto.
Qed.
Lemma sched_lock_rule c0 ms l1 a l2 : s_log (srun (sinit c0) ms) = l1 ++ a :: l2 -> lock_rule l1 a.
Proof. intros H. apply sched_log_ok in H. destruct a; simpl in *; tauto. Qed.
