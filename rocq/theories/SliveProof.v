(** Proofs of the liveness properties of the Scheduler. *)
From Verif Require Import PyBase PyBaseProof HeapModel HeapProof SchedModel SchedSpec SchedProof SchedProof2 SchedProof3 SliveSpec.
From Coq Require Import Lia.

(** the actions by which a call takes effect *)
Definition is_effect (a : act) : bool :=
  match a with ASched _ _ | ACancel _ _ | ACancelFail _ _ | AYield _ _ | AEmpty _ | ANotDue _ | ABool _ _ | AQueue _ _ => true | _ => false end.
Definition effects (s : sstate) : nat := length (filter is_effect (s_log s)).
(** before its effect, and after it *)
Definition before (p : pc) : bool :=
  match p with
  | PSched0 _ _ _ _ | PSched1 _ _ _ _ | PSched2 _ _ _ | PSched3 _ _ _ | PCan0 _ | PCan1 _
  | PNext0 _ | PNext1 _ | PNext2 _ | PNext3 _ _ | PNext4 _ _ _ | PNext5 true _ | PNext6 true _ | PSleep _ | PWait _ _
  | PBool0 | PBool1 | PQueue0 | PQueue1 => true
  | _ => false end.
Definition after (p : pc) : bool := match p with Idle => false | _ => negb (before p) end.
Definition asking (p : pc) : bool :=
  match p with PSched0 _ _ _ _ | PCan0 _ | PNext0 _ | PBool0 | PQueue0 => true | _ => false end.

Lemma go_other s t p a u : u <> t -> s_pc (go s t p a) u = s_pc s u.
Proof. intros. cbn. now apply setpc_other. Qed.

(** ** single moves *)
Lemma step_other s m u : m <> MStep u -> (forall c, m <> MCall u c) -> m <> MEarly u -> s_pc (sstep s m) u = s_pc s u \/ s_pc (sstep s m) u = woken_pc (s_pc s u).
Proof.
  intros H1 H2 H3. destruct m as [t c|t|t|d]; cbn [sstep].
  - assert (u <> t) by (intros ->; now apply (H2 c)). destruct (s_pc s t); auto; rewrite go_other; auto.
  - assert (N : u <> t) by congruence. unfold tstep, acquire, release.
    destruct (s_pc s t); repeat match goal with |- context [match ?x with _ => _ end] => destruct x end; auto; rewrite go_other by auto; auto.
  - assert (u <> t) by congruence. destruct (s_pc s t); auto; rewrite go_other; auto.
  - destruct (0 <=? d)%Z; auto.
Qed.
(** a thread that is inside a call, and not in sleep, moves only by its own steps *)
Lemma step_still s m u : m <> MStep u -> s_pc s u <> Idle -> (forall d w, s_pc s u <> PWait d w) -> s_pc (sstep s m) u = s_pc s u.
Proof.
  intros H1 H2 H3. assert (W : woken_pc (s_pc s u) = s_pc s u) by (destruct (s_pc s u); auto; exfalso; eapply H3; reflexivity).
  destruct m as [t c|t|t|d].
  - destruct (Nat.eq_dec t u) as [->|N]; [cbn; destruct (s_pc s u) eqn:E; congruence|]. destruct (step_other s (MCall t c) u ltac:(intros; congruence) ltac:(intros; congruence) ltac:(intros; congruence)) as [E|E]; congruence.
  - destruct (step_other s (MStep t) u ltac:(intros; congruence) ltac:(intros; congruence) ltac:(intros; congruence)) as [E|E]; congruence.
  - destruct (Nat.eq_dec t u) as [->|N]; [cbn; destruct (s_pc s u) eqn:E; try congruence; exfalso; eapply H3; reflexivity|].
    destruct (step_other s (MEarly t) u ltac:(intros; congruence) ltac:(intros; congruence) ltac:(intros; congruence)) as [E|E]; congruence.
  - destruct (step_other s (MTick d) u ltac:(intros; congruence) ltac:(intros; congruence) ltac:(intros; congruence)) as [E|E]; congruence.
Qed.
Lemma crit_not_sleep p : crit p = true -> p <> Idle /\ forall d w, p <> PWait d w.
Proof. intros H. split; intros; intros ->; discriminate. Qed.
Lemma step_clock s m : (s_clock s <= s_clock (sstep s m))%Z.
Proof.
  destruct m as [t c|t|t|d]; cbn [sstep]; try (destruct (s_pc s t); cbn; lia).
  - unfold tstep, acquire, release. destruct (s_pc s t); repeat match goal with |- context [match ?x with _ => _ end] => destruct x end; cbn; lia.
  - destruct (0 <=? d)%Z eqn:E; cbn; lia.
Qed.
Lemma effects_app s l : length (filter is_effect (s_log s ++ l)) = effects s + length (filter is_effect l).
Proof. unfold effects. rewrite filter_app, app_length. auto. Qed.
Lemma step_effects s m : effects s <= effects (sstep s m).
Proof.
  destruct m as [t c|t|t|d]; cbn [sstep].
  - destruct (s_pc s t); try lia. unfold effects at 2. cbn [go s_log]. rewrite effects_app. lia.
  - unfold tstep, acquire, release. destruct (s_pc s t); repeat match goal with |- context [match ?x with _ => _ end] => destruct x end; try lia; unfold effects at 2; cbn [go s_log with_heap with_lock with_flag with_counter wake_all]; rewrite effects_app; lia.
  - destruct (s_pc s t); try lia. unfold effects at 2. cbn [go s_log]. rewrite effects_app. lia.
  - destruct (0 <=? d)%Z; [|lia]. unfold effects at 2. cbn [s_log]. rewrite effects_app. lia.
Qed.
Ltac eff := right; unfold effects at 2; cbn [go s_log with_heap with_lock with_flag with_counter wake_all]; rewrite effects_app; cbn; lia.
Lemma step_heap s m : s_heap (sstep s m) = s_heap s \/ effects s < effects (sstep s m).
Proof.
  destruct m as [t c|t|t|d]; cbn [sstep].
  - destruct (s_pc s t); auto.
  - unfold tstep, acquire, release. destruct (s_pc s t); repeat match goal with |- context [match ?x with _ => _ end] => destruct x end; auto; eff.
  - destruct (s_pc s t); auto.
  - destruct (0 <=? d)%Z; auto.
Qed.
(** a call leaves the stages before its effect only by its effect; a thread comes to the stages after it only so *)
Lemma step_before s m t : before (s_pc s t) = true -> before (s_pc (sstep s m) t) = true \/ effects s < effects (sstep s m).
Proof.
  intros B. assert (HW : forall p, before (woken_pc p) = before p) by (intros []; auto).
  destruct m as [u c|u|u|d].
  - destruct (Nat.eq_dec u t) as [->|N]; [cbn; destruct (s_pc s t) eqn:E; try discriminate; rewrite E; auto|].
    destruct (step_other s (MCall u c) t ltac:(intros; congruence) ltac:(intros; congruence) ltac:(intros; congruence)) as [E|E]; rewrite E, ?HW; auto.
  - destruct (Nat.eq_dec u t) as [->|N].
    + cbn [sstep]. unfold tstep, acquire, release. destruct (s_pc s t) eqn:E; try discriminate;
      repeat match goal with |- context [match ?x with _ => _ end] => destruct x eqn:? end;
      try (left; cbn; rewrite setpc_same; auto; fail); try (left; rewrite E; auto; fail); try eff; try discriminate.
    + destruct (step_other s (MStep u) t ltac:(intros; congruence) ltac:(intros; congruence) ltac:(intros; congruence)) as [E|E]; rewrite E, ?HW; auto.
  - destruct (Nat.eq_dec u t) as [->|N]; [cbn; destruct (s_pc s t) eqn:E; try discriminate; try (rewrite E; auto; fail); left; cbn; rewrite setpc_same; auto|].
    destruct (step_other s (MEarly u) t ltac:(intros; congruence) ltac:(intros; congruence) ltac:(intros; congruence)) as [E|E]; rewrite E, ?HW; auto.
  - destruct (step_other s (MTick d) t ltac:(intros; congruence) ltac:(intros; congruence) ltac:(intros; congruence)) as [E|E]; rewrite E, ?HW; auto.
Qed.
Lemma step_not_after s m t : after (s_pc s t) = false -> after (s_pc (sstep s m) t) = false \/ effects s < effects (sstep s m).
Proof.
  intros A. destruct (before (s_pc s t)) eqn:B.
  - destruct (step_before s m t B) as [B'|]; auto. left. unfold after. destruct (s_pc (sstep s m) t); auto; now rewrite B'.
  - assert (I : s_pc s t = Idle) by (destruct (s_pc s t); auto; unfold after in A; rewrite B in A; discriminate).
    left. destruct m as [u c|u|u|d].
    + destruct (Nat.eq_dec u t) as [->|N]; [cbn; rewrite I; cbn; rewrite setpc_same; now destruct c|].
      destruct (step_other s (MCall u c) t ltac:(intros; congruence) ltac:(intros; congruence) ltac:(intros; congruence)) as [E|E]; rewrite E, I; auto.
    + destruct (Nat.eq_dec u t) as [->|N]; [cbn; unfold tstep; rewrite I; now rewrite I|].
      destruct (step_other s (MStep u) t ltac:(intros; congruence) ltac:(intros; congruence) ltac:(intros; congruence)) as [E|E]; rewrite E, I; auto.
    + destruct (Nat.eq_dec u t) as [->|N]; [cbn; rewrite I; now rewrite I|].
      destruct (step_other s (MEarly u) t ltac:(intros; congruence) ltac:(intros; congruence) ltac:(intros; congruence)) as [E|E]; rewrite E, I; auto.
    + destruct (step_other s (MTick d) t ltac:(intros; congruence) ltac:(intros; congruence) ltac:(intros; congruence)) as [E|E]; rewrite E, I; auto.
Qed.
(** an effect leaves its thread in one of the stages after it *)
Lemma step_effect_after s m : effects s < effects (sstep s m) -> exists t, m = MStep t /\ before (s_pc s t) = true /\ after (s_pc (sstep s m) t) = true /\
  exists a, s_log (sstep s m) = s_log s ++ [a] /\ is_effect a = true.
Proof.
  destruct m as [u c|u|u|d]; cbn [sstep].
  - destruct (s_pc s u); try lia. unfold effects at 2. cbn [go s_log]. rewrite effects_app. cbn. lia.
  - intros H. exists u. split; auto. revert H. unfold tstep, acquire, release. destruct (s_pc s u) eqn:E; repeat match goal with |- context [match ?x with _ => _ end] => destruct x eqn:? end; try lia;
    unfold effects at 2; cbn [go s_log with_heap with_lock with_flag with_counter wake_all]; rewrite effects_app; cbn [filter is_effect length]; intros H; try lia;
    (split; [reflexivity|]; split; [cbn; rewrite setpc_same; reflexivity|]; eexists; split; [reflexivity|reflexivity]).
  - destruct (s_pc s u); try lia. unfold effects at 2. cbn [go s_log]. rewrite effects_app. cbn. lia.
  - destruct (0 <=? d)%Z; [|lia]. unfold effects at 2. cbn [s_log]. rewrite effects_app. cbn. lia.
Qed.
(** the lock is taken only by a thread that asks for it *)
Lemma step_acquires s m u : InvL s -> s_lock s = None -> s_lock (sstep s m) = Some u -> m = MStep u /\ asking (s_pc s u) = true /\ crit (s_pc (sstep s m) u) = true.
Proof.
  intros [_ L] N H. assert (C : forall t, crit (s_pc s t) = false). { intros t. destruct (crit (s_pc s t)) eqn:E; auto. apply L in E. congruence. }
  destruct m as [t c|t|t|d]; cbn [sstep] in *.
  - exfalso. destruct (s_pc s t); cbn in H; congruence.
  - specialize (C t). unfold tstep, acquire, release in *. rewrite N in *. destruct (s_pc s t) eqn:E; try discriminate;
    try (repeat match goal with H : context [match ?x with _ => _ end] |- _ => destruct x end; cbn in H; congruence);
    cbn in H; injection H as <-; rewrite E; split; auto; split; auto; cbn; now rewrite setpc_same.
  - exfalso. destruct (s_pc s t); cbn in H; congruence.
  - exfalso. destruct (0 <=? d)%Z; cbn in H; congruence.
Qed.
Lemma asking_acquires s t : s_lock s = None -> asking (s_pc s t) = true -> s_lock (tstep s t) = Some t /\ crit (s_pc (tstep s t) t) = true /\ s_heap (tstep s t) = s_heap s /\ s_clock (tstep s t) = s_clock s /\
  match s_pc (tstep s t) t with PSched1 _ _ _ _ | PCan1 _ | PNext1 _ | PBool1 | PQueue1 => True | _ => False end.
Proof.
  intros N A. unfold tstep. destruct (s_pc s t); try discriminate; unfold acquire; rewrite N; cbn; rewrite setpc_same; auto.
Qed.
Lemma asking_waits s t u : s_lock s = Some u -> asking (s_pc s t) = true -> tstep s t = s.
Proof. intros N A. unfold tstep. destruct (s_pc s t); try discriminate; unfold acquire; now rewrite N. Qed.

Definition due (s : sstate) : Prop := forall x tl, h_queue (s_heap s) = x :: tl -> (e_time x <= s_clock s)%Z.
(** a thread that has the lock and is certain to take effect *)
Definition sure (s : sstate) (u : tid) : Prop :=
  match s_pc s u with
  | PNext1 _ | PNext2 _ => due s
  | PNext3 _ now => forall x tl, h_queue (s_heap s) = x :: tl -> (e_time x <= now)%Z
  | PNext4 _ _ dt => (dt <= 0)%Z
  | PSched1 _ _ _ _ | PSched2 _ _ _ | PSched3 _ _ _ | PCan1 _ | PBool1 | PQueue1 => True
  | _ => False
  end.
Lemma sure_crit s u : sure s u -> crit (s_pc s u) = true.
Proof. unfold sure. destruct (s_pc s u); tauto. Qed.
Lemma sure_step c0 s u : InvD c0 s -> sure s u -> effects s < effects (tstep s u) \/ (sure (tstep s u) u /\ rank (s_pc (tstep s u) u) < rank (s_pc s u)).
Proof.
  intros D H. pose proof (d_pc _ _ D u) as Hp. unfold pcinv_of in Hp. unfold sure in H. unfold tstep. destruct (s_pc s u) eqn:E; try tauto; cbn [pcinv] in Hp.
  - right. destruct absolute; unfold sure; cbn; rewrite setpc_same; cbn; split; auto; lia.
  - right. unfold sure. cbn. rewrite setpc_same. cbn. split; auto; lia.
  - left. unfold effects at 2. cbn [go s_log with_heap]. rewrite effects_app. cbn. lia.
  - left. destruct (hstep event_ltb event_eqb (s_heap s) (Remove e)) as [h [o|o]]; unfold effects at 2; cbn [go s_log with_heap]; rewrite effects_app; cbn; lia.
  - destruct (heap_bool (s_heap s)); [right|left].
    + unfold sure. cbn. rewrite setpc_same. cbn. split; auto; lia.
    + unfold effects at 2; cbn [go s_log]; rewrite effects_app; cbn; lia.
  - right. unfold sure. cbn. rewrite setpc_same. cbn. split; auto; lia.
  - right. destruct Hp as (Hq & _). destruct (h_queue (s_heap s)) as [|x q] eqn:Q; [congruence|].
    rewrite (getitem0 _ _ _ Q). unfold sure. cbn. rewrite setpc_same. cbn. split; [|lia]. specialize (H x q eq_refl). lia.
  - left. rewrite (proj2 (Z.leb_le _ _) H). unfold effects at 2; cbn [go s_log with_heap]; rewrite effects_app; cbn; lia.
  - left. unfold effects at 2; cbn [go s_log]; rewrite effects_app; cbn; lia.
  - left. unfold effects at 2; cbn [go s_log]; rewrite effects_app; cbn; lia.
Qed.
(** while a thread holds the lock, the others change nothing that matters to it *)
Lemma others_while_held s m u : InvL s -> crit (s_pc s u) = true -> m <> MStep u -> s_pc (sstep s m) u = s_pc s u /\ s_lock (sstep s m) = Some u.
Proof.
  intros L C N. destruct (crit_not_sleep _ C) as [C1 C2]. assert (E : s_pc (sstep s m) u = s_pc s u) by (apply step_still; auto). split; auto.
  apply (InvL_sstep s m L). now rewrite E.
Qed.

Lemma not_after p : after p = false -> p <> Idle -> before p = true.
Proof. unfold after. destruct (before p) eqn:B; auto. destruct p; intros; try discriminate; congruence. Qed.

Section Live.
  Context (c0 : Z) (sigma : schedule).
  Notation st := (state_at c0 sigma).
  Hypothesis F : fair sigma.
  Hypothesis T : forall d, exists n, (d <= s_clock (st n))%Z.

  Lemma st_inv n : Inv c0 (st n).
  Proof. induction n as [|n IH]; cbn; [apply Inv_init|now apply Inv_step]. Qed.
  Lemma st_L n : InvL (st n). Proof. apply (st_inv n). Qed.
  Lemma st_D n : InvD c0 (st n). Proof. apply (st_inv n). Qed.
  Lemma mono_clock n m : n <= m -> (s_clock (st n) <= s_clock (st m))%Z.
  Proof. induction 1; cbn; [lia|]. pose proof (step_clock (st m) (sigma m)). lia. Qed.
  Lemma mono_effects n m : n <= m -> effects (st n) <= effects (st m).
  Proof. induction 1; cbn; [lia|]. pose proof (step_effects (st m) (sigma m)). lia. Qed.

  (** a call takes effect later *)
  Definition E n := exists m, n <= m /\ effects (st n) < effects (st m).
  Lemma E_le n m : n <= m -> E m -> E n.
  Proof. intros L (k & Lk & H). exists k. split; [lia|]. pose proof (mono_effects n m L). lia. Qed.
  Lemma E_step n : effects (st n) < effects (st (S n)) -> E n.
  Proof. intros H. exists (S n). split; [lia|auto]. Qed.

  (** what holds until t steps *)
  Lemma next_own (P : sstate -> Prop) t n : P (st n) ->
    (forall k, n <= k -> P (st k) -> sigma k <> MStep t -> P (st (S k)) \/ E k) ->
    (exists k, n <= k /\ sigma k = MStep t /\ P (st k)) \/ E n.
  Proof.
    intros H S. destruct (F t n) as (m & Lm & Em). remember (m - n) as d eqn:Hd. revert n Lm Hd H S. induction d as [|d IH]; intros n Lm Hd H S0.
    - assert (m = n) by lia. subst m. left. exists n. auto.
    - assert (Dm : {sigma n = MStep t} + {sigma n <> MStep t}).
      { destruct (sigma n) as [u c|u|u|x]; try (right; discriminate). destruct (Nat.eq_dec u t) as [->|X]; [left; auto|right; congruence]. }
      destruct Dm as [X|X]; [left; exists n; auto|]. destruct (S0 n (le_n n) H X) as [H1|H1]; [|now right].
      destruct (IH (S n)) as [(k & Lk & Y)|Y]; auto; try lia.
      + intros k Lk. apply S0. lia.
      + left. exists k. split; [lia|auto].
      + right. apply (E_le n (S n)); auto.
  Qed.
  Lemma next_own_crit (P : sstate -> Prop) u n : crit (s_pc (st n) u) = true -> P (st n) ->
    (forall s m, InvL s -> P s -> crit (s_pc s u) = true -> m <> MStep u -> P (sstep s m) \/ effects s < effects (sstep s m)) ->
    (exists k, n <= k /\ sigma k = MStep u /\ s_pc (st k) u = s_pc (st n) u /\ P (st k)) \/ E n.
  Proof.
    intros C H S. destruct (next_own (fun s => s_pc s u = s_pc (st n) u /\ P s) u n) as [(k & L & A & B & D)|X]; auto; [|left; exists k; auto].
    intros k Lk [A B] N. cbn. destruct (others_while_held (st k) (sigma k) u (st_L k) ltac:(congruence) N) as [A1 _].
    destruct (S (st k) (sigma k) (st_L k) B ltac:(congruence) N) as [X|X]; [left; split; auto; congruence|right; now apply E_step].
  Qed.

  (** the holder of the lock releases it *)
  Lemma drive r : forall n u, crit (s_pc (st n) u) = true -> rank (s_pc (st n) u) <= r -> E n \/ exists m, n <= m /\ s_lock (st m) = None.
  Proof.
    induction r as [|r IH]; intros n u C R.
    - exfalso. destruct (s_pc (st n) u); simpl in *; try discriminate; lia.
    - destruct (next_own_crit (fun _ => True) u n C I) as [(k & Lk & Ek & Pk & _)|X]; auto.
      assert (Ck : crit (s_pc (st k) u) = true) by congruence.
      destruct (crit_progress c0 (st k) u (st_L k) (st_D k) Ck) as [X|[X Y]].
      + right. exists (S k). split; [lia|]. cbn. rewrite Ek. exact X.
      + destruct (IH (S k) u) as [Z|(m & Lm & Z)].
        * cbn. now rewrite Ek.
        * cbn. rewrite Ek. cbn [sstep]. rewrite Pk in Y. lia.
        * left. apply (E_le n (S k)); auto; lia.
        * right. exists m. split; [lia|auto].
  Qed.
  Lemma free_later n : E n \/ exists m, n <= m /\ s_lock (st m) = None.
  Proof.
    destruct (s_lock (st n)) as [u|] eqn:L; [|right; eauto]. apply (proj2 (st_L n)) in L. eapply drive; eauto.
  Qed.
  (** a thread that is sure takes effect *)
  Lemma sure_effect r : forall n u, sure (st n) u -> rank (s_pc (st n) u) <= r -> E n.
  Proof.
    induction r as [|r IH]; intros n u H R.
    - exfalso. unfold sure in H. destruct (s_pc (st n) u); simpl in *; try tauto; lia.
    - destruct (next_own_crit (fun s => sure s u) u n (sure_crit _ _ H) H) as [(k & Lk & Ek & Pk & Hk)|X]; auto.
      + intros s m L Hs C N. destruct (others_while_held s m u L C N) as [A _]. destruct (step_heap s m) as [B|B]; auto. left.
        pose proof (step_clock s m) as D. unfold sure in *. rewrite A. destruct (s_pc s u); auto; unfold due in *; rewrite B; intros x tl Q; specialize (Hs x tl Q); lia.
      + destruct (sure_step c0 (st k) u (st_D k) Hk) as [X|[X Y]].
        * apply (E_le n k); auto. apply E_step. cbn. now rewrite Ek.
        * apply (E_le n (S k)); [lia|]. apply (IH (S k) u); cbn; rewrite Ek; auto. cbn [sstep]. rewrite Pk in Y. lia.
  Qed.
  Lemma step_due k : due (st k) -> due (st (S k)) \/ E k.
  Proof.
    intros H. destruct (step_heap (st k) (sigma k)) as [A|A]; [left|right; now apply E_step].
    unfold due in *. cbn. rewrite A. intros x tl Q. specialize (H x tl Q). pose proof (step_clock (st k) (sigma k)). lia.
  Qed.
  Lemma acquired_effect k u : due (st k) -> s_lock (st k) = None -> s_lock (st (S k)) = Some u -> E k.
  Proof.
    intros H L A. cbn in A. destruct (step_acquires _ _ _ (st_L k) L A) as (X & Y & Z). destruct (asking_acquires (st k) u L Y) as (_ & C & Hh & Hc & M).
    apply (E_le k (S k)); [lia|]. eapply (sure_effect _ (S k) u); [|apply le_n]. cbn. rewrite X. cbn [sstep]. unfold sure, due. rewrite Hh, Hc.
    destruct (s_pc (tstep (st k) u) u); try tauto.
  Qed.
  (** a thread that asks for the lock takes effect, or another does *)
  Lemma asking_effect n t : due (st n) -> asking (s_pc (st n) t) = true -> E n.
  Proof.
    intros H A. destruct (free_later n) as [X|(m & Lm & Lk)]; auto.
    assert (K : E n \/ (due (st m) /\ asking (s_pc (st m) t) = true)).
    { clear Lk. induction Lm as [|m Lm IH]; auto. destruct IH as [X|[D B]]; auto.
      destruct (step_due m D) as [D'|X]; [|left; apply (E_le n m); auto].
      assert (Dm : {sigma m = MStep t} + {sigma m <> MStep t}).
      { destruct (sigma m) as [u c|u|u|x]; try (right; discriminate). destruct (Nat.eq_dec u t) as [->|X]; [left; auto|right; congruence]. }
      destruct Dm as [X|X].
      - destruct (s_lock (st m)) as [u|] eqn:L.
        + right. split; auto. cbn. rewrite X. cbn [sstep]. now rewrite (asking_waits _ _ _ L B).
        + left. apply (E_le n m); auto. apply (acquired_effect m t); auto. cbn. rewrite X. now apply asking_acquires.
      - right. split; auto. cbn. rewrite step_still; auto; destruct (s_pc (st m) t); discriminate. }
    destruct K as [X|[D B]]; auto. apply (E_le n m); auto.
    destruct (next_own (fun s => s_lock s = None /\ due s /\ asking (s_pc s t) = true) t m) as [(k & Lk' & Ek & L & Dk & Bk)|X]; auto.
    - intros k Lk' (L & Dk & Bk) N. destruct (s_lock (st (S k))) as [u|] eqn:L'; [right; now apply (acquired_effect k u)|].
      destruct (step_due k Dk) as [D'|X]; auto. left. split; auto. split; auto. cbn. rewrite step_still; auto; destruct (s_pc (st k) t); discriminate.
    - apply (E_le m k); auto. apply (acquired_effect k t); auto. cbn. rewrite Ek. now apply asking_acquires.
  Qed.
  Lemma waiting_effect n t d w : due (st n) -> s_pc (st n) t = PWait d w -> E n.
  Proof.
    intros H A. destruct (T d) as (m0 & Hm0).
    assert (K : forall k, due (st k) -> (exists w, s_pc (st k) t = PWait d w) -> sigma k <> MStep t -> (due (st (S k)) /\ exists w, s_pc (st (S k)) t = PWait d w) \/ E k).
    { intros k Dk (w' & Pk) N. destruct (step_due k Dk) as [D'|X]; auto.
      assert (Dm : {sigma k = MEarly t} + {sigma k <> MEarly t}).
      { destruct (sigma k) as [u c|u|u|x]; try (right; discriminate). destruct (Nat.eq_dec u t) as [->|X]; [left; auto|right; congruence]. }
      destruct Dm as [X|X].
      - right. apply (E_le k (S k)); [lia|]. apply (asking_effect (S k) t); auto. cbn. rewrite X. cbn. rewrite Pk. cbn. now rewrite setpc_same.
      - left. split; auto. cbn. assert (Dc : forall c, sigma k <> MCall t c \/ s_pc (sstep (st k) (sigma k)) t = s_pc (st k) t).
        { intros c. destruct (sigma k) as [u c'|u|u|x]; try (left; discriminate). destruct (Nat.eq_dec u t) as [->|Y]; [right|left; congruence]. cbn. now rewrite Pk. }
        destruct (sigma k) as [u c'|u|u|x] eqn:Es.
        + destruct (Nat.eq_dec u t) as [->|Y]; [exists w'; cbn; now rewrite Pk|].
          destruct (step_other (st k) (MCall u c') t ltac:(intros; congruence) ltac:(intros; congruence) ltac:(intros; congruence)) as [Z|Z]; rewrite Z, Pk; cbn; eauto.
        + destruct (step_other (st k) (MStep u) t ltac:(intros; congruence) ltac:(intros; congruence) ltac:(intros; congruence)) as [Z|Z]; rewrite Z, Pk; cbn; eauto.
        + destruct (step_other (st k) (MEarly u) t ltac:(intros; congruence) ltac:(intros; congruence) ltac:(intros; congruence)) as [Z|Z]; rewrite Z, Pk; cbn; eauto.
        + destruct (step_other (st k) (MTick x) t ltac:(intros; congruence) ltac:(intros; congruence) ltac:(intros; congruence)) as [Z|Z]; rewrite Z, Pk; cbn; eauto. }
    assert (Own : forall k, due (st k) -> (exists w, s_pc (st k) t = PWait d w) -> sigma k = MStep t -> (due (st (S k)) /\ exists w, s_pc (st (S k)) t = PWait d w) \/ E k).
    { intros k Dk (w' & Pk) Es. destruct (step_due k Dk) as [D'|X]; auto. cbn. rewrite Es. cbn [sstep]. destruct (w' || (d <=? s_clock (st k))%Z) eqn:B.
      - right. apply (E_le k (S k)); [lia|]. apply (asking_effect (S k) t); auto. cbn. rewrite Es. cbn [sstep]. unfold tstep. rewrite Pk, B. cbn. now rewrite setpc_same.
      - left. split; auto; [cbn in D'; rewrite Es in D'; exact D'|]. exists w'. unfold tstep. now rewrite Pk, B. }
    assert (G : forall m, n <= m -> (due (st m) /\ exists w, s_pc (st m) t = PWait d w) \/ E n).
    { induction 1 as [|m Lm IH]; eauto. destruct IH as [[Dm Pm]|X]; auto.
      assert (Dk : {sigma m = MStep t} + {sigma m <> MStep t}).
      { destruct (sigma m) as [u c|u|u|x]; try (right; discriminate). destruct (Nat.eq_dec u t) as [->|X]; [left; auto|right; congruence]. }
      assert (Q : (due (st (S m)) /\ exists w, s_pc (st (S m)) t = PWait d w) \/ E m) by (destruct Dk; [apply Own|apply K]; auto).
      destruct Q as [Q|Q]; auto. right. apply (E_le n m); auto. }
    destruct (G (n + m0) ltac:(lia)) as [[Dm Pm]|X]; auto. pose proof (mono_clock m0 (n + m0) ltac:(lia)) as Hc.
    apply (E_le n (n + m0)); [lia|].
    destruct (next_own (fun s => (due s /\ exists w, s_pc s t = PWait d w) /\ (d <= s_clock s)%Z) t (n + m0)) as [(k & Lk & Ek & [Dk (w' & Pk)] & Ck)|X]; auto.
    - split; auto. lia.
    - intros k Lk [[Dk Pk] Ck] N. destruct (K k Dk Pk N) as [Y|Y]; auto. left. split; auto. pose proof (step_clock (st k) (sigma k)). cbn. lia.
    - apply (E_le _ k); auto. destruct (step_due k Dk) as [D'|X]; auto. apply (E_le k (S k)); [lia|]. apply (asking_effect (S k) t); auto.
      cbn. rewrite Ek. cbn [sstep]. unfold tstep. rewrite Pk, (proj2 (Z.leb_le _ _) Ck), orb_true_r. cbn. now rewrite setpc_same.
  Qed.
  Lemma due_later n m : n <= m -> due (st n) -> due (st m) \/ E n.
  Proof. induction 1 as [|m L IH]; intros H; auto. destruct (IH H) as [D|X]; auto. destruct (step_due m D) as [D'|X]; auto. right. apply (E_le n m); auto. Qed.
  Lemma own_still n t : due (st n) -> s_pc (st n) t <> Idle -> (forall d w, s_pc (st n) t <> PWait d w) ->
    (exists k, n <= k /\ sigma k = MStep t /\ s_pc (st k) t = s_pc (st n) t /\ due (st k) /\ due (st (S k))) \/ E n.
  Proof.
    intros D N W. destruct (next_own (fun s => s_pc s t = s_pc (st n) t /\ due s) t n) as [(k & L & A & B & C)|X]; auto.
    - intros k L [B C] Nk. destruct (step_due k C) as [D'|X]; auto. left. split; auto. cbn. rewrite step_still; auto; intros; rewrite B; auto.
    - destruct (step_due k C) as [D'|X]; [left; exists k; auto|right; apply (E_le n k); auto].
  Qed.
  Lemma sleeping_effect n t d : due (st n) -> s_pc (st n) t = PSleep d -> E n.
  Proof.
    intros D P. destruct (own_still n t D) as [(k & L & A & B & C & C')|X]; auto; try (rewrite P; discriminate).
    apply (E_le n (S k)); [lia|]. rewrite P in B. destruct (s_flag (st k)) eqn:Fl.
    - apply (asking_effect _ t); auto. cbn. rewrite A. cbn [sstep]. unfold tstep. rewrite B, Fl. cbn. now rewrite setpc_same.
    - eapply (waiting_effect _ t); auto. cbn. rewrite A. cbn [sstep]. unfold tstep. rewrite B, Fl. cbn. now rewrite setpc_same.
  Qed.
  Lemma released_effect n t d : due (st n) -> s_pc (st n) t = PNext6 true d -> E n.
  Proof.
    intros D P. destruct (own_still n t D) as [(k & L & A & B & C & C')|X]; auto; try (rewrite P; discriminate).
    apply (E_le n (S k)); [lia|]. rewrite P in B. eapply (sleeping_effect _ t); auto. cbn. rewrite A. cbn [sstep]. unfold tstep. rewrite B. cbn. now rewrite setpc_same.
  Qed.
  Lemma held_effect r : forall n t, due (st n) -> crit (s_pc (st n) t) = true -> before (s_pc (st n) t) = true -> rank (s_pc (st n) t) <= r -> E n.
  Proof.
    induction r as [|r IH]; intros n t D C B R.
    - exfalso. destruct (s_pc (st n) t); simpl in *; try discriminate; lia.
    - destruct (crit_not_sleep _ C) as [C1 C2]. destruct (own_still n t D C1 C2) as [(k & Lk & Ek & Pk & D1 & D2)|X]; auto.
      apply (E_le n k); auto. destruct (step_before (st k) (sigma k) t ltac:(congruence)) as [B'|X]; [|now apply E_step].
      apply (E_le k (S k)); [lia|]. destruct (crit_progress c0 (st k) t (st_L k) (st_D k) ltac:(congruence)) as [X|[X Y]].
      + assert (N : crit (s_pc (st (S k)) t) = false).
        { destruct (crit (s_pc (st (S k)) t)) eqn:Y; auto. apply (proj2 (st_L (S k))) in Y. cbn in Y. rewrite Ek in Y. cbn [sstep] in Y. congruence. }
        assert (Z : exists d, s_pc (st (S k)) t = PNext6 true d).
        { cbn in *. rewrite Ek in *. cbn [sstep] in *. clear - X N B' C B Pk. rewrite <- Pk in C, B. unfold tstep, release in *. destruct (s_pc (st k) t) eqn:E; try discriminate;
          repeat match goal with _ : context [match ?x with _ => _ end] |- _ => destruct x eqn:? end; cbn in *; rewrite ?setpc_same in *; try discriminate; eauto; try congruence; try (rewrite E in N; discriminate). destruct b; [eauto|discriminate]. }
        destruct Z as [d Z]. eapply (released_effect _ t); eauto.
      + apply (IH (S k) t); auto; cbn in *; rewrite Ek in *; cbn [sstep] in *; auto. rewrite Pk in Y. lia.
  Qed.
  (** a call that has not taken effect yet: some call takes effect later *)
  Theorem effect_later n t : before (s_pc (st n) t) = true -> E n.
  Proof.
    intros B. assert (Hd : exists m, n <= m /\ (due (st m) \/ E n)).
    { destruct (h_queue (s_heap (st n))) as [|x tl] eqn:Q.
      - exists n. split; auto. left. intros y l Hy. congruence.
      - destruct (T (e_time x)) as (m & Hm). exists (n + m). split; [lia|]. pose proof (mono_clock m (n + m) ltac:(lia)) as Hc.
        assert (K : forall k, n <= k -> s_heap (st k) = s_heap (st n) \/ E n).
        { induction 1 as [|k Lk IH]; auto. destruct IH as [IH|]; auto. destruct (step_heap (st k) (sigma k)) as [A|A]; [left; cbn; congruence|right]. apply (E_le n k); auto. now apply E_step. }
        destruct (K (n + m) ltac:(lia)) as [K1|]; auto. left. intros y l Hy. rewrite K1, Q in Hy. injection Hy as <- <-. lia. }
    destruct Hd as (m & Lm & [D|]); auto.
    assert (K : before (s_pc (st m) t) = true \/ E n).
    { clear D. induction Lm as [|m Lm IH]; auto. destruct IH as [IH|]; auto. destruct (step_before (st m) (sigma m) t IH) as [|X]; auto. right. apply (E_le n m); auto. now apply E_step. }
    destruct K as [K|]; auto. apply (E_le n m); auto.
    destruct (s_pc (st m) t) eqn:P; try discriminate;
      try (apply (asking_effect m t); auto; rewrite P; reflexivity);
      try (eapply (held_effect _ m t); [auto|rewrite P; reflexivity|rewrite P; reflexivity|apply le_n]).
    - destruct b; [|discriminate]. eapply (held_effect _ m t); [auto|rewrite P; reflexivity|rewrite P; reflexivity|apply le_n].
    - destruct b; [|discriminate]. eapply (released_effect m t); eauto.
    - eapply (sleeping_effect m t); eauto.
    - eapply (waiting_effect m t); eauto.
  Qed.
  Lemma E_when n : E n -> exists k, n <= k /\ effects (st k) < effects (st (S k)).
  Proof.
    intros (m & L & H). induction L as [|m L IH]; [lia|]. destruct (Nat.lt_ge_cases (effects (st n)) (effects (st m))) as [X|X].
    - destruct (IH X) as (k & Lk & Hk). eauto.
    - exists m. split; auto. pose proof (mono_effects n m L). lia.
  Qed.

  (** ** a call that has taken effect returns *)
  Definition rank2 (p : pc) : nat := match p with PSched6 _ | PCan4 | PCanErr2 | PNextRet2 _ | PNextStop2 | PNext6 _ _ | PBool3 _ | PQueue3 _ => 0 | p => rank p end.
  Lemma after_step s t : after (s_pc s t) = true -> (exists r, s_log (tstep s t) = s_log s ++ [ARet t r] /\ s_pc (tstep s t) t = Idle) \/
    (after (s_pc (tstep s t) t) = true /\ rank2 (s_pc (tstep s t) t) < rank2 (s_pc s t)).
  Proof.
    intros A. unfold tstep, release. destruct (s_pc s t) eqn:E; try discriminate; try (left; eexists; split; [reflexivity|]; cbn; now rewrite setpc_same);
    try (right; cbn; rewrite setpc_same; cbn; split; [reflexivity|lia]).
    - destruct b; [discriminate|]. right. cbn. rewrite setpc_same. cbn. split; [reflexivity|lia].
    - destruct b; [discriminate|]. left. eexists. split; [reflexivity|]. cbn. now rewrite setpc_same.
  Qed.
  Lemma after_returns r : forall n t, after (s_pc (st n) t) = true -> rank2 (s_pc (st n) t) <= r ->
    exists k v, n <= k /\ s_log (st (S k)) = s_log (st k) ++ [ARet t v] /\ s_pc (st (S k)) t = Idle.
  Proof.
    assert (AI : forall p, after p = true -> p <> Idle /\ forall d w, p <> PWait d w) by (intros p H; split; intros; intros ->; discriminate).
    assert (Own : forall n t, after (s_pc (st n) t) = true -> exists k, n <= k /\ sigma k = MStep t /\ s_pc (st k) t = s_pc (st n) t).
    { intros n t A. destruct (F t n) as (m & Lm & Em). remember (m - n) as d eqn:Hd. revert n Lm Hd A. induction d as [|d IHd]; intros n Lm Hd A; destruct (AI _ A) as [A1 A2].
      - exists n. split; auto. split; auto. replace n with m by lia. auto.
      - assert (Dm : {sigma n = MStep t} + {sigma n <> MStep t}) by
        (destruct (sigma n) as [u c|u|u|x]; try (right; discriminate); destruct (Nat.eq_dec u t) as [->|X]; [left; auto|right; congruence]).
        destruct Dm as [X|X]; [exists n; auto|].
        assert (P : s_pc (st (S n)) t = s_pc (st n) t) by (cbn; now apply step_still).
        destruct (IHd (S n)) as (k & Lk & Ek & Pk); rewrite ?P; auto; try lia. exists k. repeat split; auto; try lia; congruence. }
    induction r as [|r IH]; intros n t A R; destruct (Own n t A) as (k & Lk & Ek & Pk); destruct (after_step (st k) t ltac:(congruence)) as [(v & H1 & H2)|[H1 H2]];
      try (exists k, v; split; auto; cbn; rewrite Ek; auto; fail).
    - rewrite Pk in H2. lia.
    - destruct (IH (S k) t) as (j & v & Lj & Hj).
      + cbn. now rewrite Ek.
      + cbn. rewrite Ek. cbn [sstep]. rewrite Pk in H2. lia.
      + exists j, v. split; [lia|auto].
  Qed.
  Theorem return_later n t : s_pc (st n) t <> Idle -> exists k u v, n <= k /\ s_log (st (S k)) = s_log (st k) ++ [ARet u v].
  Proof.
    intros N. destruct (after (s_pc (st n) t)) eqn:A.
    - destruct (after_returns _ n t A (le_n _)) as (k & v & L & H & _). eauto 6.
    - assert (B : before (s_pc (st n) t) = true) by (now apply not_after).
      destruct (E_when n (effect_later n t B)) as (k & Lk & Hk). cbn in Hk. destruct (step_effect_after _ _ Hk) as (u & _ & _ & Au & _).
      destruct (after_returns _ (S k) u Au (le_n _)) as (j & v & Lj & Hj & _). exists j, u, v. split; [lia|auto].
  Qed.
  Lemma first_effect n : E n -> exists k, n <= k /\ effects (st k) = effects (st n) /\ effects (st k) < effects (st (S k)).
  Proof.
    intros (m & L & H). induction L as [|m L IH]; [lia|]. destruct (Nat.lt_ge_cases (effects (st n)) (effects (st m))) as [X|X]; auto.
    exists m. pose proof (mono_effects n m L). lia.
  Qed.
  Lemma heap_until n k : n <= k -> effects (st k) = effects (st n) -> s_heap (st k) = s_heap (st n).
  Proof.
    induction 1 as [|k L IH]; intros H; auto. pose proof (mono_effects n k L). pose proof (step_effects (st k) (sigma k)). cbn in H.
    rewrite <- IH by lia. destruct (step_heap (st k) (sigma k)) as [A|A]; auto. lia.
  Qed.
  Lemma came_after a b t : a <= b -> after (s_pc (st a) t) = false -> after (s_pc (st b) t) = true -> effects (st a) < effects (st b).
  Proof.
    intros L A. induction L as [|b L IH]; [congruence|]. intros B. destruct (after (s_pc (st b) t)) eqn:X.
    - pose proof (step_effects (st b) (sigma b)). specialize (IH eq_refl). cbn. lia.
    - destruct (step_not_after (st b) (sigma b) t X) as [Y|Y]; [cbn in B; congruence|]. pose proof (mono_effects a b L). cbn. lia.
  Qed.
  Lemma idle_stays s m t : s_pc s t = Idle -> (forall c, m <> MCall t c) -> s_pc (sstep s m) t = Idle.
  Proof.
    intros I N. destruct m as [u c|u|u|d].
    - destruct (step_other s (MCall u c) t ltac:(intros; congruence) ltac:(intros c' X; injection X as -> ->; now apply (N c')) ltac:(intros; congruence)) as [E|E]; now rewrite E, I.
    - destruct (Nat.eq_dec u t) as [->|X]; [cbn; unfold tstep; now rewrite I, I|].
      destruct (step_other s (MStep u) t ltac:(intros; congruence) ltac:(intros; congruence) ltac:(intros; congruence)) as [E|E]; now rewrite E, I.
    - destruct (Nat.eq_dec u t) as [->|X]; [cbn; now rewrite I, I|].
      destruct (step_other s (MEarly u) t ltac:(intros; congruence) ltac:(intros; congruence) ltac:(intros; congruence)) as [E|E]; now rewrite E, I.
    - destruct (step_other s (MTick d) t ltac:(intros; congruence) ltac:(intros; congruence) ltac:(intros; congruence)) as [E|E]; now rewrite E, I.
  Qed.
  Lemma finitely_many n : exists L, forall t, ~ In t L -> s_pc (st n) t = Idle.
  Proof.
    induction n as [|n [L IH]]; [exists []; auto|]. destruct (sigma n) as [u c|u|u|d] eqn:Es.
    - exists (u :: L). intros t H. cbn [state_at]. rewrite Es. apply idle_stays; [apply IH; cbn in *; tauto|]. intros c' X. injection X as -> ->. apply H. now left.
    - exists L. intros t H. cbn [state_at]. rewrite Es. apply idle_stays; [auto|discriminate].
    - exists L. intros t H. cbn [state_at]. rewrite Es. apply idle_stays; [auto|discriminate].
    - exists L. intros t H. cbn [state_at]. rewrite Es. apply idle_stays; [auto|discriminate].
  Qed.
  Lemma all_return n L : exists M, n <= M /\ forall t, In t L -> after (s_pc (st n) t) = true -> exists k, n <= k <= M /\ s_pc (st k) t = Idle.
  Proof.
    induction L as [|t L (M & LM & IH)]; [exists n; split; [lia|intros t []]|].
    destruct (after (s_pc (st n) t)) eqn:A.
    - destruct (after_returns _ n t A (le_n _)) as (k & v & Lk & _ & Hk). exists (S k + M). split; [lia|]. intros u [<-|Hu] Au.
      + exists (S k). split; [lia|auto].
      + destruct (IH u Hu Au) as (j & Hj & Pj). exists j. split; [lia|auto].
    - exists M. split; auto. intros u [<-|Hu] Au; [congruence|auto].
  Qed.
  Lemma consumers_effect n : (forall k, exists m t, k <= m /\ s_pc (st m) t <> Idle) -> E n.
  Proof.
    intros C. destruct (finitely_many n) as [L HL]. destruct (all_return n L) as (M & LM & HM). destruct (C M) as (m & t & Lm & N).
    destruct (after (s_pc (st m) t)) eqn:A.
    - destruct (after (s_pc (st n) t)) eqn:B.
      + destruct (in_dec Nat.eq_dec t L) as [I|I]; [|rewrite (HL t I) in B; discriminate]. destruct (HM t I B) as (k & Hk & Pk).
        exists m. split; [lia|]. pose proof (mono_effects n k ltac:(lia)). pose proof (came_after k m t ltac:(lia) ltac:(now rewrite Pk) A). lia.
      + exists m. split; [lia|]. apply (came_after n m t); auto; lia.
    - apply (E_le n m); [lia|]. apply (effect_later m t). now apply not_after.
  Qed.

  (** only next(scheduler) *)
  Definition nexting (p : pc) : bool :=
    match p with
    | Idle | PNextRet1 _ | PNextRet2 _ | PNextStop1 | PNextStop2 | PSleep _ | PWait _ _ => true
    | PNext0 b | PNext1 b | PNext2 b | PNext3 b _ | PNext4 b _ _ | PNext5 b _ | PNext6 b _ => b
    | _ => false end.
  Lemma nexting_step s m t : (forall u c, m = MCall u c -> c = CNext true) -> nexting (s_pc s t) = true -> nexting (s_pc (sstep s m) t) = true.
  Proof.
    intros O N. assert (HW : nexting (woken_pc (s_pc s t)) = true) by (destruct (s_pc s t); auto).
    destruct m as [u c|u|u|d].
    - rewrite (O u c eq_refl) in *. destruct (Nat.eq_dec u t) as [->|X].
      + cbn. destruct (s_pc s t) eqn:E; try (rewrite E; exact N). cbn. now rewrite setpc_same.
      + destruct (step_other s (MCall u (CNext true)) t ltac:(intros; congruence) ltac:(intros; congruence) ltac:(intros; congruence)) as [E|E]; rewrite E; auto.
    - destruct (Nat.eq_dec u t) as [->|X].
      + cbn [sstep]. unfold tstep, acquire, release. destruct (s_pc s t) eqn:E; try discriminate;
        repeat match goal with |- context [match ?x with _ => _ end] => destruct x eqn:? end; cbn; rewrite ?setpc_same, ?E; auto; discriminate.
      + destruct (step_other s (MStep u) t ltac:(intros; congruence) ltac:(intros; congruence) ltac:(intros; congruence)) as [E|E]; rewrite E; auto.
    - destruct (Nat.eq_dec u t) as [->|X].
      + cbn. destruct (s_pc s t) eqn:E; try (rewrite E; exact N). cbn. now rewrite setpc_same.
      + destruct (step_other s (MEarly u) t ltac:(intros; congruence) ltac:(intros; congruence) ltac:(intros; congruence)) as [E|E]; rewrite E; auto.
    - destruct (step_other s (MTick d) t ltac:(intros; congruence) ltac:(intros; congruence) ltac:(intros; congruence)) as [E|E]; rewrite E; auto.
  Qed.
  Lemma nexting_effect s t a : nexting (s_pc s t) = true -> s_log (tstep s t) = s_log s ++ [a] -> is_effect a = true ->
    (exists e, a = AYield t e) \/ a = AEmpty t.
  Proof.
    intros N H Ea. revert H. unfold tstep, acquire, release. destruct (s_pc s t) eqn:E; try discriminate;
    repeat match goal with |- context [match ?x with _ => _ end] => destruct x eqn:? end; cbn; intros H;
    first [apply app_inv_head in H; first [discriminate H | injection H as <-; try discriminate; eauto] | exfalso; apply (f_equal (@length act)) in H; rewrite app_length in H; cbn in H; lia].
  Qed.

  Theorem events_yielded : forall q n e, length (h_queue (s_heap (st n))) <= q ->
    (forall k t c, n <= k -> sigma k = MCall t c -> c = CNext true) -> (forall t, nexting (s_pc (st n) t) = true) ->
    (forall k, exists m t, k <= m /\ s_pc (st m) t <> Idle) ->
    pending (s_log (st n)) e -> exists m, n <= m /\ In e (yielded (s_log (st m))).
  Proof.
    induction q as [|q IH]; intros n e Q O N C P.
    - apply (pending_iff c0 (st n) e (st_D n)) in P. destruct (h_queue (s_heap (st n))); [destruct P|cbn in Q; lia].
    - destruct (first_effect n (consumers_effect n C)) as (k & Lk & Ek & Hk). pose proof (heap_until n k Lk Ek) as Hh.
      assert (Pk : pending (s_log (st k)) e) by (apply (pending_iff c0 (st k) e (st_D k)); rewrite Hh; now apply (pending_iff c0 (st n) e (st_D n))).
      assert (Nk : forall m, n <= m -> forall t, nexting (s_pc (st m) t) = true).
      { induction 1 as [|m Lm IHm]; auto. intros t. cbn. apply nexting_step; auto. intros u c Es. eapply O; eauto. }
      cbn in Hk. destruct (step_effect_after _ _ Hk) as (t & Es & _ & _ & a & La & Ea). pose proof La as La0. rewrite Es in La. cbn [sstep] in La.
      destruct (nexting_effect (st k) t a (Nk k Lk t) La Ea) as [[e' ->]| ->].
      + destruct (event_eqb e e') eqn:B.
        * apply event_eqb_eq in B. subst e'. exists (S k). split; [lia|]. cbn. rewrite La0, yielded_app. cbn. apply in_or_app. cbn. auto.
        * assert (Ne : e <> e') by (intros X; apply event_eqb_eq in X; congruence).
          destruct (IH (S k) e) as (m & Lm & Hm).
          -- pose proof (Permutation_length (d_part _ _ (st_D k))) as P1. pose proof (Permutation_length (d_part _ _ (st_D (S k)))) as P2.
             cbn [state_at] in P2. rewrite La0, scheduled_app, yielded_app, cancelled_app in P2. cbn in P2. rewrite !app_nil_r in P2. rewrite !app_length in P1, P2. cbn in P2.
             rewrite !app_length in P2. cbn in P2. rewrite Hh in P1. cbn [state_at]. lia.
          -- intros j u c Lj. apply O. lia.
          -- apply Nk. lia.
          -- exact C.
          -- cbn [state_at]. rewrite La0. unfold pending in *. rewrite scheduled_app, yielded_app, cancelled_app. cbn. rewrite !app_nil_r. destruct Pk as (P1 & P2 & P3). split; [auto|]. split; auto.
             intros X. apply in_app_or in X. cbn in X. intuition congruence.
          -- exists m. split; [lia|auto].
      + exfalso. pose proof (proj1 (proj2 (proj2 (st_inv (S k))))) as LO. cbn [state_at] in LO. rewrite La0 in LO. specialize (LO (s_log (st k)) (AEmpty t) [] eq_refl). cbn in LO. apply (proj2 LO e Pk).
  Qed.
End Live.

(** ** the call a thread is in, from the history *)
Definition fits (p : pc) (c : call) : Prop :=
  match c with
  | CSchedule _ _ _ _ => match p with PSched0 _ _ _ _ | PSched1 _ _ _ _ | PSched2 _ _ _ | PSched3 _ _ _ | PSched4 _ | PSched4b _ | PSched5 _ | PSched6 _ => True | _ => False end
  | CCancel _ => match p with PCan0 _ | PCan1 _ | PCan2 | PCan2b | PCan3 | PCan4 | PCanErr1 | PCanErr2 => True | _ => False end
  | CNext b => match p with PNext0 b' | PNext1 b' | PNext2 b' | PNext3 b' _ | PNext4 b' _ _ | PNext5 b' _ | PNext6 b' _ => b' = b
                | PNextRet1 _ | PNextRet2 _ | PNextStop1 | PNextStop2 => True | PSleep _ | PWait _ _ => b = true | _ => False end
  | CBool => match p with PBool0 | PBool1 | PBool2 _ | PBool3 _ => True | _ => False end
  | CQueue => match p with PQueue0 | PQueue1 | PQueue2 _ | PQueue3 _ => True | _ => False end
  end.
Definition InvC (s : sstate) : Prop := forall t, match in_call t (s_log s) with None => s_pc s t = Idle | Some c => fits (s_pc s t) c end.
Lemma in_call_app t l a : in_call t (l ++ [a]) = match a with ACall u d => if u =? t then Some d else in_call t l | ARet u _ => if u =? t then None else in_call t l | _ => in_call t l end.
Proof. unfold in_call. rewrite fold_left_app. cbn. destruct a; auto. Qed.
Lemma fits_woken p c : fits p c -> fits (woken_pc p) c.
Proof. destruct p; auto. Qed.
Lemma in_call_mine t u acts l : u <> t -> forallb (mine t) acts = true -> length acts <= 1 -> in_call u (l ++ acts) = in_call u l.
Proof.
  intros N M L. destruct acts as [|a [|b acts]]; cbn in L; [now rewrite app_nil_r| |lia]. rewrite in_call_app. cbn in M. rewrite andb_true_r in M.
  destruct a; auto; cbn in M; apply Nat.eqb_eq in M; subst; destruct (Nat.eqb_spec t u); congruence.
Qed.
Lemma InvC_gen s s' t acts : InvC s -> s_log s' = s_log s ++ acts -> forallb (mine t) acts = true -> length acts <= 1 ->
  (forall u, u <> t -> s_pc s' u = s_pc s u \/ s_pc s' u = woken_pc (s_pc s u)) ->
  (match in_call t (s_log s') with None => s_pc s' t = Idle | Some c => fits (s_pc s' t) c end) -> InvC s'.
Proof.
  intros I El M L O H u. destruct (Nat.eq_dec u t) as [->|N]; auto. rewrite El, (in_call_mine t u acts _ N M L). specialize (I u).
  destruct (O u N) as [-> | ->]; destruct (in_call u (s_log s)) as [c|]; auto; [now apply fits_woken|now rewrite I].
Qed.
