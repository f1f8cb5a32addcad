From Verif Require Import PyBase PyBaseProof HeapModel HeapSpec HeapProof SchedModel SchedSpec.
Require Import ZifyBool ZifyNat.

(** ** order on events *)
Lemma event_ltb_weak : strict_weak event_ltb.
Proof.
  unfold strict_weak, event_ltb. repeat split; intros;
  repeat match goal with
  | H : context [(?x <? ?y)%Z] |- _ => destruct (Z.ltb_spec x y); try discriminate
  | |- context [(?x <? ?y)%Z] => destruct (Z.ltb_spec x y)
  end; try reflexivity; try discriminate; try lia.
Qed.
Lemma event_eqb_eq a b : event_eqb a b = true <-> a = b.
Proof.
  unfold event_eqb. destruct a, b; simpl. rewrite !andb_true_iff, Nat.eqb_eq, !Z.eqb_eq.
  split; [intros ((((->&->)&->)&->)&->); auto | intros E; inversion E; auto].
Qed.

(** ** log lemmas *)
Lemma scheduled_app l m : scheduled (l ++ m) = scheduled l ++ scheduled m.
Proof. apply flat_map_app. Qed.
Lemma yielded_app l m : yielded (l ++ m) = yielded l ++ yielded m.
Proof. apply flat_map_app. Qed.
Lemma cancelled_app l m : cancelled (l ++ m) = cancelled l ++ cancelled m.
Proof. apply flat_map_app. Qed.
Lemma of_thread_app t l m : of_thread t (l ++ m) = of_thread t l ++ of_thread t m.
Proof. apply filter_app. Qed.
Lemma clock_app c l m : clock_of c (l ++ m) = clock_of (clock_of c l) m.
Proof. apply fold_left_app. Qed.

Definition crit (p : pc) : bool :=
  match p with
  | PSched1 _ _ _ _ | PSched2 _ _ _ | PSched3 _ _ _ | PSched4 _ | PSched4b _ | PSched5 _
  | PCan1 _ | PCan2 | PCan2b | PCan3 | PCanErr1
  | PNext1 _ | PNext2 _ | PNext3 _ _ | PNext4 _ _ _ | PNextRet1 _ | PNextStop1 | PNext5 _ _
  | PBool1 | PBool2 _ | PQueue1 | PQueue2 _ => true
  | _ => false
  end.

(** ** A: the lock *)
Definition InvL (s : sstate) : Prop :=
  s_lock s = holder (s_log s) /\ forall u, s_lock s = Some u <-> crit (s_pc s u) = true.

Lemma setpc_same f t p : setpc f t p t = p.
Proof. unfold setpc. rewrite Nat.eqb_refl. auto. Qed.
Lemma setpc_other f t p u : u <> t -> setpc f t p u = f u.
Proof. unfold setpc. intros H. destruct (Nat.eqb_spec u t); congruence. Qed.

Lemma crit_wake p : crit (woken_pc p) = crit p.
Proof. destruct p; auto. Qed.

Ltac holder_simpl := unfold holder; rewrite ?fold_left_app; cbn [fold_left]; fold (holder).

Lemma InvL_go s t p a : InvL s -> crit p = crit (s_pc s t) ->
  (match a with [] => True | [AAcq _] | [ARel _] => False | [_] => True | _ => False end) ->
  InvL (go s t p a).
Proof.
  intros [H1 H2] Hc Ha. split; simpl.
  - rewrite H1. unfold holder. rewrite fold_left_app. destruct a as [|x [|? ?]]; simpl in *; auto; [|destruct x; tauto].
    destruct x; auto; tauto.
  - intros u. unfold setpc. destruct (Nat.eqb_spec u t) as [->|Hu]; auto. rewrite Hc. auto.
Qed.

Lemma InvL_same s s' : s_lock s' = s_lock s -> s_log s' = s_log s -> (forall u, crit (s_pc s' u) = crit (s_pc s u)) ->
  InvL s -> InvL s'.
Proof. intros E1 E2 E3 [H1 H2]. split; [congruence|]. intros u. rewrite E1, E3. auto. Qed.

Lemma InvL_acquire s t p : InvL s -> crit p = true -> crit (s_pc s t) = false -> InvL (acquire s t p).
Proof.
  intros H Hp Hc. unfold acquire. destruct (s_lock s) as [o|] eqn:E; [exact H|].
  destruct H as [H1 H2]. split; simpl.
  - unfold holder. rewrite fold_left_app. auto.
  - intros u. unfold setpc. destruct (Nat.eqb_spec u t) as [->|Hu].
    + rewrite Hp. split; auto.
    + split; [intros K; inversion K; congruence|]. intros K. apply H2 in K. congruence.
Qed.
Lemma InvL_release s t p : InvL s -> crit p = false -> crit (s_pc s t) = true -> InvL (release s t p).
Proof.
  intros [H1 H2] Hp Hc. unfold release. split; simpl.
  - unfold holder. rewrite fold_left_app. auto.
  - intros u. unfold setpc. destruct (Nat.eqb_spec u t) as [->|Hu].
    + rewrite Hp. split; discriminate.
    + split; [discriminate|]. intros K. apply H2 in K. apply H2 in Hc. congruence.
Qed.

Lemma wake_pc s t : s_pc (wake_all s) t = woken_pc (s_pc s t).
Proof. reflexivity. Qed.

Lemma InvL_wake s : InvL s -> InvL (wake_all (with_flag s true)).
Proof.
  apply InvL_same; try reflexivity. intros u. rewrite wake_pc.
  apply crit_wake.
Qed.

Lemma InvL_tstep s t : InvL s -> InvL (tstep s t).
Proof.
  intros H. unfold tstep.
  destruct (s_pc s t) eqn:E; auto;
  try (apply InvL_acquire; auto; rewrite E; reflexivity);
  try (apply InvL_release; auto; rewrite E; reflexivity);
  try (apply InvL_go; [first [exact H | apply InvL_wake; exact H | eapply InvL_same; [| | |exact H]; reflexivity]
     | rewrite ?wake_pc; cbn [s_pc with_flag with_heap with_counter]; rewrite E; reflexivity | simpl; exact I]).
  - destruct absolute; apply InvL_go; auto; rewrite E; auto.
  - destruct (hstep event_ltb event_eqb (s_heap s) (Remove e)) as [h [r|r]];
      (apply InvL_go; [eapply InvL_same; [| | |exact H]; reflexivity| simpl; rewrite E; auto | simpl; auto]).
  - destruct (heap_bool (s_heap s)); apply InvL_go; auto; rewrite E; auto.
  - destruct (heap_getitem event_ltb (s_heap s) (IInt 0)) as [[ev|]|]; auto. apply InvL_go; auto; rewrite E; auto.
  - destruct (dt <=? 0)%Z.
    + apply InvL_go; [eapply InvL_same; [| | |exact H]; reflexivity| simpl; rewrite E; auto | simpl; auto].
    + apply InvL_go; auto; [rewrite E; auto | destruct b; simpl; auto].
  - destruct b; apply InvL_go; auto; rewrite E; auto.
  - destruct (s_flag s); apply InvL_go; auto; rewrite E; auto.
  - destruct (_ || _)%bool; auto; apply InvL_go; auto; rewrite E; auto.
Qed.

Lemma InvL_sstep s m : InvL s -> InvL (sstep s m).
Proof.
  intros H. destruct m as [t c|t|t|d]; simpl.
  - destruct (s_pc s t) eqn:E; auto. apply InvL_go; auto. rewrite E. destruct c; auto.
  - apply InvL_tstep; auto.
  - destruct (s_pc s t) eqn:E; auto. apply InvL_go; auto. rewrite E; auto.
  - destruct (0 <=? d)%Z; auto. destruct H as [H1 H2]. split; simpl; auto.
    rewrite H1. unfold holder. rewrite fold_left_app. auto.
Qed.

(** ** C: the data *)
Definition pcinv (q : list event) (cnt : Z) (sch : list event) (clk : Z) (rd : option Z) (p : pc) : Prop :=
  match p with
  | PSched3 _ _ _ => Forall (fun e => (e_seq e < cnt)%Z) sch
  | PNext2 _ => q <> []
  | PNext3 _ now => q <> [] /\ rd = Some now /\ (now <= clk)%Z
  | PNext4 _ ev dt => exists n tl, q = ev :: tl /\ rd = Some n /\ (n <= clk)%Z /\ dt = (e_time ev - n)%Z
  | PNext5 _ dt | PNext6 _ dt | PSleep dt => (0 < dt)%Z
  | _ => True
  end.
Definition pcinv_of (s : sstate) (t : tid) : Prop :=
  pcinv (h_queue (s_heap s)) (s_counter s) (scheduled (s_log s)) (s_clock s) (time_read t (s_log s)) (s_pc s t).

Record InvD (c0 : Z) (s : sstate) : Prop := mkInvD {
  d_clock : s_clock s = clock_of c0 (s_log s);
  d_heap : is_heap event_ltb (h_queue (s_heap s));
  d_part : Permutation (scheduled (s_log s)) (h_queue (s_heap s) ++ yielded (s_log s) ++ cancelled (s_log s));
  d_seq : StronglySorted (fun a b => e_seq a < e_seq b)%Z (scheduled (s_log s));
  d_cnt : Forall (fun e => e_seq e <= s_counter s)%Z (scheduled (s_log s));
  d_pc : forall t, pcinv_of s t }.

Definition quiet (t : tid) (a : act) : bool :=
  match a with
  | ACall u _ | ARet u _ | AAcq u | ARel u | ANow u _ | AWake u | ASleep u _
  | ACancelFail u _ | AEmpty u | ANotDue u | ABool u _ | AQueue u _ => u =? t
  | _ => false
  end.
Definition mine (t : tid) (a : act) : bool :=
  match a with
  | ASched u _ | AYield u _ | ACancel u _ => u =? t
  | _ => quiet t a
  end.

Lemma quiet_log t acts : forallb (quiet t) acts = true ->
  scheduled acts = [] /\ yielded acts = [] /\ cancelled acts = [] /\ forall c, clock_of c acts = c.
Proof.
  induction acts as [|a acts IH]; simpl; auto. intros H. apply andb_prop in H. destruct H as [H1 H2].
  destruct (IH H2) as (I1 & I2 & I3 & I4). unfold clock_of in *. destruct a; simpl in *; try discriminate; repeat split; auto.
Qed.
Lemma time_read_mine t u acts l : forallb (mine t) acts = true -> u <> t -> time_read u (l ++ acts) = time_read u l.
Proof.
  intros H Hu. unfold time_read. rewrite fold_left_app. generalize (fold_left
    (fun (r : option Z) (a : act) => match a with
      | AAcq u0 => if u0 =? u then None else r
      | ANow u0 v => if u0 =? u then Some v else r
      | _ => r end) l None). intros r.
  revert r H; induction acts as [|a acts IH]; intros r; simpl; auto. intros H. apply andb_prop in H. destruct H as [H1 H2].
  rewrite IH; auto. destruct a; auto; simpl in H1; apply Nat.eqb_eq in H1; subst; destruct (Nat.eqb_spec t u); congruence.
Qed.
Lemma quiet_mine t acts : forallb (quiet t) acts = true -> forallb (mine t) acts = true.
Proof.
  induction acts as [|a acts IH]; simpl; auto. intros H. apply andb_prop in H. destruct H as [H1 H2].
  rewrite IH by auto. destruct a; simpl in *; try discriminate; rewrite H1; auto.
Qed.

Lemma pcinv_noncrit q c sc k r q' c' sc' k' r' p : crit p = false -> pcinv q c sc k r p -> pcinv q' c' sc' k' r' p.
Proof. destruct p; simpl; auto; discriminate. Qed.
Lemma pcinv_woken q c sc k r p : pcinv q c sc k r p -> pcinv q c sc k r (woken_pc p).
Proof. destruct p; simpl; auto. Qed.

(** steps that change neither the heap nor the counter nor the clock *)
Lemma InvD_quiet c0 s s' t p acts : InvD c0 s ->
  s_heap s' = s_heap s -> s_counter s' = s_counter s -> s_clock s' = s_clock s ->
  s_log s' = s_log s ++ acts -> forallb (quiet t) acts = true ->
  s_pc s' t = p -> (forall u, u <> t -> s_pc s' u = s_pc s u \/ s_pc s' u = woken_pc (s_pc s u)) ->
  pcinv (h_queue (s_heap s)) (s_counter s) (scheduled (s_log s)) (s_clock s) (time_read t (s_log s ++ acts)) p ->
  InvD c0 s'.
Proof.
  intros [D1 D2 D3 D4 D5 D6] E1 E2 E3 E4 Q Ep Eo Hp.
  destruct (quiet_log _ _ Q) as (Q1 & Q2 & Q3 & Q4).
  constructor; rewrite ?E1, ?E2, ?E3, ?E4, ?scheduled_app, ?yielded_app, ?cancelled_app, ?clock_app, ?Q1, ?Q2, ?Q3, ?Q4, ?app_nil_r; auto.
  intros u. unfold pcinv_of. rewrite E1, E2, E3, E4, scheduled_app, Q1, app_nil_r.
  destruct (Nat.eq_dec u t) as [->|Hu]; [rewrite Ep; auto|].
  rewrite (time_read_mine t) by auto using quiet_mine.
  destruct (Eo u Hu) as [-> | ->]; [apply D6 | apply pcinv_woken, D6].
Qed.

Lemma InvD_go c0 s t p acts : InvD c0 s -> forallb (quiet t) acts = true ->
  pcinv (h_queue (s_heap s)) (s_counter s) (scheduled (s_log s)) (s_clock s) (time_read t (s_log s ++ acts)) p ->
  InvD c0 (go s t p acts).
Proof.
  intros D Q H. eapply InvD_quiet with (t := t) (p := p) (acts := acts); eauto; simpl.
  - apply setpc_same.
  - intros u Hu. left. apply setpc_other; auto.
Qed.
Lemma InvD_lock c0 s l : InvD c0 s -> InvD c0 (with_lock s l).
Proof. intros [D1 D2 D3 D4 D5 D6]. constructor; auto. Qed.
Lemma InvD_flag c0 s b : InvD c0 s -> InvD c0 (with_flag s b).
Proof. intros [D1 D2 D3 D4 D5 D6]. constructor; auto. Qed.
Lemma InvD_wake c0 s : InvD c0 s -> InvD c0 (wake_all s).
Proof.
  intros [D1 D2 D3 D4 D5 D6]. constructor; auto. intros u. unfold pcinv_of. rewrite wake_pc. simpl.
  apply pcinv_woken, D6.
Qed.

(** steps of the lock holder that change heap, counter: the others are not critical *)
Lemma InvD_data c0 s h c t p acts : InvL s -> InvD c0 s -> crit (s_pc s t) = true ->
  let s' := mkS h c (s_lock s) (s_flag s) (s_clock s) (setpc (s_pc s) t p) (s_log s ++ acts) in
  forallb (mine t) acts = true ->
  is_heap event_ltb (h_queue h) ->
  Permutation (scheduled (s_log s ++ acts)) (h_queue h ++ yielded (s_log s ++ acts) ++ cancelled (s_log s ++ acts)) ->
  StronglySorted (fun a b => e_seq a < e_seq b)%Z (scheduled (s_log s ++ acts)) ->
  Forall (fun e => e_seq e <= c)%Z (scheduled (s_log s ++ acts)) ->
  pcinv (h_queue h) c (scheduled (s_log s ++ acts)) (s_clock s) (time_read t (s_log s ++ acts)) p ->
  InvD c0 s'.
Proof.
  intros [L1 L2] [D1 D2 D3 D4 D5 D6] Hc s' M H1 H2 H3 H4 H5. unfold s'. constructor; simpl; auto.
  - rewrite clock_app, <- D1. clear -M. revert M. generalize (s_clock s). induction acts as [|a acts IH]; simpl; auto.
    intros z M. apply andb_prop in M. destruct M as [M1 M2]. unfold clock_of in *. simpl. rewrite <- IH by auto. destruct a; simpl in *; auto; discriminate.
  - intros u. unfold pcinv_of. simpl. unfold setpc. destruct (Nat.eqb_spec u t) as [->|Hu]; auto.
    eapply pcinv_noncrit; [|apply D6].
    destruct (crit (s_pc s u)) eqn:E; auto. apply L2 in E. apply L2 in Hc. congruence.
Qed.

Lemma seq_nodup l : StronglySorted (fun a b => e_seq a < e_seq b)%Z l -> NoDup l.
Proof.
  induction 1 as [|a l S IH F]; constructor; auto.
  intros Hin. rewrite Forall_forall in F. apply F in Hin. lia.
Qed.

Lemma NoDup_app_disj {X} (l1 l2 : list X) : NoDup (l1 ++ l2) -> NoDup l1 /\ NoDup l2 /\ forall x, In x l1 -> ~ In x l2.
Proof.
  induction l1 as [|a l1 IH]; simpl; intros H; [repeat split; auto; constructor|].
  inversion H; subst. destruct (IH H3) as (I1 & I2 & I3). repeat split; auto.
  - constructor; auto. intros K. apply H2, in_or_app; auto.
  - intros x [<-|Hx]; auto. intros K. apply H2, in_or_app; auto.
Qed.

Lemma pending_iff c0 s e : InvD c0 s -> (In e (h_queue (s_heap s)) <-> pending (s_log s) e).
Proof.
  intros D. pose proof (seq_nodup _ (d_seq _ _ D)) as N. pose proof (d_part _ _ D) as P.
  pose proof (Permutation_NoDup P N) as N'. apply NoDup_app_disj in N'. destruct N' as (_ & _ & N').
  unfold pending. split.
  - intros H. split; [apply (Permutation_in _ (Permutation_sym P)), in_or_app; auto|].
    apply N' in H. split; intros K; apply H, in_or_app; auto.
  - intros (H1 & H2 & H3). apply (Permutation_in _ P) in H1. apply in_app_or in H1. destruct H1 as [H1|H1]; auto.
    apply in_app_or in H1. tauto.
Qed.
Lemma queue_nodup c0 s : InvD c0 s -> NoDup (h_queue (s_heap s)).
Proof.
  intros D. pose proof (Permutation_NoDup (d_part _ _ D) (seq_nodup _ (d_seq _ _ D))) as N.
  apply NoDup_app_disj in N. apply N.
Qed.

Lemma sorted_split (l : list event) a b : StronglySorted (fun a b => e_seq a < e_seq b)%Z l ->
  In a l -> In b l -> (e_seq a < e_seq b)%Z -> exists l1 l2 l3, l = l1 ++ a :: l2 ++ b :: l3.
Proof.
  intros S Ha Hb Hlt. induction S as [|x l S IH F]; [destruct Ha|].
  rewrite Forall_forall in F.
  destruct Ha as [->|Ha].
  - destruct Hb as [->|Hb]; [lia|]. apply in_split in Hb. destruct Hb as (l2 & l3 & ->). exists [], l2, l3. auto.
  - destruct Hb as [->|Hb]; [apply F in Ha; lia|].
    destruct (IH Ha Hb) as (l1 & l2 & l3 & ->). exists (x :: l1), l2, l3. auto.
Qed.

Lemma ltb_first c0 s e e' : InvD c0 s -> pending (s_log s) e -> pending (s_log s) e' -> e' <> e ->
  event_ltb e' e = false -> comes_first (s_log s) e e'.
Proof.
  intros D [H1 _] [H2 _] Hn Hlt. unfold comes_first. unfold event_ltb in Hlt.
  destruct (Z.ltb_spec (e_time e') (e_time e)); [discriminate|].
  destruct (Z.ltb_spec (e_time e) (e_time e')); [left; auto|]. right. split; [lia|].
  destruct (Z.ltb_spec (e_prio e') (e_prio e)); [discriminate|].
  destruct (Z.ltb_spec (e_prio e) (e_prio e')); [left; auto|]. right. split; [lia|].
  destruct (Z.ltb_spec (e_seq e') (e_seq e)); [discriminate|].
  apply sorted_split; auto; [apply (d_seq _ _ D)|].
  assert (e_seq e <> e_seq e'); [|lia]. intros Heq. apply Hn.
  clear Hlt. pose proof (d_seq _ _ D) as S. revert H1 H2. induction S as [|x l S IH F]; [intros []|].
  rewrite Forall_forall in F. intros [->|H1'] [->|H2']; auto; [apply F in H2'|apply F in H1']; lia.
Qed.

Lemma heappop_head x l : exists q, heappop event_ltb (x :: l) = Some (x, q).
Proof.
  unfold heappop. destruct (rev (x :: l)) as [|z r] eqn:E.
  - apply (f_equal (@rev event)) in E. rewrite rev_involutive in E. discriminate.
  - apply (f_equal (@rev event)) in E. rewrite rev_involutive in E. simpl in E.
    destruct (rev r) as [|y u]; simpl in E; inversion E; subst; eauto.
Qed.

Lemma getitem0 (h : heap event) x tl : h_queue h = x :: tl -> heap_getitem event_ltb h (IInt 0) = Ok (One x).
Proof.
  intros Q. unfold heap_getitem. change (0 =? 0)%Z with true. cbv iota zeta. rewrite Q.
  rewrite py_index_nonneg by lia. reflexivity.
Qed.
Lemma time_read_snoc_other t l a : (match a with AAcq _ | ANow _ _ => False | _ => True end) -> time_read t (l ++ [a]) = time_read t l.
Proof. intros H. unfold time_read. rewrite fold_left_app. simpl. destruct a; auto; tauto. Qed.

Lemma InvD_tstep c0 s t : InvL s -> InvD c0 s -> InvD c0 (tstep s t).
Proof.
  intros L D. pose proof (d_pc _ _ D t) as Hp. unfold pcinv_of in Hp. unfold tstep.
  destruct (s_pc s t) eqn:E; auto; cbn [pcinv] in Hp;
  try (unfold acquire; destruct (s_lock s) eqn:El; [exact D|]; apply InvD_go; [apply InvD_lock; exact D | simpl; rewrite Nat.eqb_refl; reflexivity | exact I]);
  try (unfold release; apply InvD_go; [apply InvD_lock; exact D | simpl; rewrite Nat.eqb_refl; reflexivity | cbn [pcinv]; first [exact I | exact Hp]]);
  try (apply InvD_go; [first [exact D | apply InvD_wake, InvD_flag; exact D | apply InvD_flag; exact D]
     | simpl; rewrite ?Nat.eqb_refl; reflexivity | exact I]).
  - destruct absolute; (apply InvD_go; [exact D | simpl; rewrite ?Nat.eqb_refl; reflexivity | exact I]).
  - (* counter *)
    assert (Hc : crit (s_pc s t) = true) by (rewrite E; auto).
    apply (InvD_data c0 s (s_heap s) (s_counter s + 1) t (PSched3 o time pr) []); auto; rewrite ?app_nil_r; try apply D.
    + eapply Forall_impl; [|apply D]. simpl. intros; lia.
    + simpl. eapply Forall_impl; [|apply D]. simpl. intros; lia.
  - (* append *)
    assert (Hc : crit (s_pc s t) = true) by (rewrite E; auto).
    set (e := mkEvent 0 o time pr (s_counter s)) in *.
    pose proof (hstep_refines event_ltb event_eqb event_ltb_weak (s_heap s) (Append e) (d_heap _ _ D)) as R.
    destruct (hstep event_ltb event_eqb (s_heap s) (Append e)) as [h out]. destruct R as (R1 & R2 & _).
    inversion R2; subst. unfold go, with_heap. cbn [s_heap s_counter s_lock s_flag s_clock s_pc s_log fst].
    apply InvD_data; auto; rewrite ?scheduled_app, ?yielded_app, ?cancelled_app; cbn [scheduled yielded cancelled flat_map app].
    + simpl. rewrite Nat.eqb_refl. auto.
    + rewrite !app_nil_r. rewrite <- Permutation_cons_append. match goal with HP : Permutation (h_queue h) _ |- _ => rewrite HP end. simpl. constructor. apply D.
    + pose proof (d_seq _ _ D) as S. clear -S Hp. induction S as [|x l S IH F]; simpl; [repeat constructor|].
      inversion Hp; subst. constructor; auto. apply Forall_app. split; auto.
    + apply Forall_app. split; [eapply Forall_impl; [|exact Hp]; simpl; intros; lia|]. repeat constructor. simpl. lia.
    + exact I.
  - (* remove *)
    assert (Hc : crit (s_pc s t) = true) by (rewrite E; auto).
    pose proof (hstep_refines event_ltb event_eqb event_ltb_weak (s_heap s) (Remove e) (d_heap _ _ D)) as R.
    destruct (hstep event_ltb event_eqb (s_heap s) (Remove e)) as [h [out|out]]; destruct R as (R1 & R2 & R3).
    + inversion R2 as [ | | |? ? x ? Hx HP| | | | | | ]; subst. apply event_eqb_eq in Hx. subst x.
      unfold go, with_heap. cbn [s_heap s_counter s_lock s_flag s_clock s_pc s_log fst].
      apply InvD_data; auto; rewrite ?scheduled_app, ?yielded_app, ?cancelled_app; cbn [scheduled yielded cancelled flat_map app]; rewrite ?app_nil_r; try apply D.
      * simpl. rewrite Nat.eqb_refl. auto.
      * rewrite (d_part _ _ D), HP. simpl. rewrite (Permutation_middle _ _ e). apply Permutation_app_head.
        rewrite (Permutation_middle _ _ e). apply Permutation_app_head. apply Permutation_cons_append.
    + destruct R3 as [-> _]. apply InvD_go; [destruct D; constructor; auto | simpl; rewrite Nat.eqb_refl; auto | exact I].
  - (* PNext1 *)
    destruct (heap_bool (s_heap s)) eqn:B.
    + apply InvD_go; auto. simpl. unfold heap_bool in B. destruct (h_queue (s_heap s)); congruence.
    + apply InvD_go; auto. simpl; rewrite Nat.eqb_refl; auto.
  - (* PNext2: now *)
    apply InvD_go; auto; [simpl; rewrite Nat.eqb_refl; auto|]. simpl. split; auto. split; [|lia].
    unfold time_read. rewrite fold_left_app. simpl. rewrite Nat.eqb_refl. auto.
  - (* PNext3: heap[0] *)
    destruct Hp as (H1 & H2 & H3).
    destruct (h_queue (s_heap s)) as [|ev tl] eqn:Q; [congruence|].
    rewrite (getitem0 _ _ _ Q).
    apply InvD_go; auto. rewrite app_nil_r. simpl. exists now, tl. rewrite Q. auto.
  - (* PNext4 *)
    destruct Hp as (n & tl & Q & H1 & H2 & H3).
    destruct (Z.leb_spec dt 0) as [Hd|Hd].
    + assert (Hc : crit (s_pc s t) = true) by (rewrite E; auto).
      pose proof (hstep_refines event_ltb event_eqb event_ltb_weak (s_heap s) Popleft (d_heap _ _ D)) as R.
      unfold hstep in *. rewrite Q in *. destruct (heappop_head ev tl) as [q Hq]. rewrite Hq in *.
      destruct R as (R1 & R2 & R3). inversion R2 as [ | | | | |? ? ? _ HP| | | | ]; subst.
      unfold go, with_heap. cbn [s_heap s_counter s_lock s_flag s_clock s_pc s_log fst].
      apply InvD_data; auto; rewrite ?scheduled_app, ?yielded_app, ?cancelled_app; cbn [scheduled yielded cancelled flat_map app]; rewrite ?app_nil_r; try apply D.
      * simpl. rewrite Nat.eqb_refl. auto.
      * rewrite (d_part _ _ D), Q, HP. simpl. rewrite (Permutation_middle _ _ ev). apply Permutation_app_head.
        rewrite <- app_assoc. simpl. apply Permutation_middle.
      * exact I.
    + destruct b; (apply InvD_go; [exact D | simpl; rewrite ?Nat.eqb_refl; reflexivity | exact Hd]).
  - destruct b; (apply InvD_go; [exact D | simpl; rewrite ?Nat.eqb_refl; reflexivity | first [exact Hp | exact I]]).
  - destruct (s_flag s); (apply InvD_go; [exact D | reflexivity | exact I]).
  - destruct (_ || _)%bool; auto. apply InvD_go; [exact D | reflexivity | exact I].
Qed.

Lemma InvD_sstep c0 s m : InvL s -> InvD c0 s -> InvD c0 (sstep s m).
Proof.
  intros L D. destruct m as [t c|t|t|d]; simpl.
  - destruct (s_pc s t) eqn:E; auto. apply InvD_go; auto; [simpl; rewrite Nat.eqb_refl; auto|]. destruct c; exact I.
  - apply InvD_tstep; auto.
  - destruct (s_pc s t) eqn:E; auto. apply InvD_go; auto. exact I.
  - destruct (Z.leb_spec 0 d); auto. destruct D as [D1 D2 D3 D4 D5 D6]. constructor; simpl;
      rewrite ?scheduled_app, ?yielded_app, ?cancelled_app; cbn [scheduled yielded cancelled flat_map app]; rewrite ?app_nil_r; auto.
    + rewrite clock_app, <- D1. reflexivity.
    + intros u. specialize (D6 u). unfold pcinv_of in *. simpl.
      rewrite scheduled_app. cbn [scheduled flat_map app]. rewrite app_nil_r, time_read_snoc_other by exact I.
      destruct (s_pc s u); simpl in *; auto.
      * destruct D6 as (? & ? & ?). repeat split; auto. lia.
      * destruct D6 as (n & tl & ? & ? & ? & ?). exists n, tl. repeat split; auto. lia.
Qed.

(** ** E: every action in the log was allowed *)
Definition log_ok (c0 : Z) (l : list act) : Prop := forall l1 a l2, l = l1 ++ a :: l2 -> good c0 l1 a.
Lemma log_ok_snoc c0 l a : log_ok c0 l -> good c0 l a -> log_ok c0 (l ++ [a]).
Proof.
  intros H G l1 x l2 E. destruct l2 as [|y l2] using rev_ind.
  - apply app_inj_tail in E. destruct E; subst; auto.
  - clear IHl2. rewrite app_comm_cons, app_assoc in E. apply app_inj_tail in E. destruct E as [E _].
    apply (H _ _ _ E).
Qed.

Lemma holder_not s t : InvL s -> crit (s_pc s t) = false -> holder (s_log s) <> Some t.
Proof. intros [L1 L2] H K. rewrite <- L1 in K. apply L2 in K. congruence. Qed.
Lemma holder_is s t : InvL s -> crit (s_pc s t) = true -> holder (s_log s) = Some t.
Proof. intros [L1 L2] H. rewrite <- L1. apply L2; auto. Qed.

Lemma log_ok_tstep c0 s t : InvL s -> InvD c0 s -> log_ok c0 (s_log s) -> log_ok c0 (s_log (tstep s t)).
Proof.
  intros L D G. pose proof (d_pc _ _ D t) as Hp. unfold pcinv_of in Hp.
  pose proof (holder_not s t L) as HN. pose proof (holder_is s t L) as HI.
  pose proof (fun e => pending_iff c0 s e D) as PI.
  unfold tstep.
  destruct (s_pc s t) eqn:E; auto; cbn [pcinv crit] in Hp, HN, HI; try specialize (HI eq_refl); try specialize (HN eq_refl);
  try (unfold acquire; destruct (s_lock s) eqn:El; [exact G|]; cbn [go with_lock s_log]; apply log_ok_snoc; auto; simpl; destruct L as [L1 L2]; congruence);
  try (unfold release; cbn [go with_lock s_log]; apply log_ok_snoc; auto; fail);
  try (cbn [go with_heap with_counter wake_all with_flag s_log]; rewrite app_nil_r; exact G);
  try (cbn [go with_heap with_counter wake_all with_flag s_log]; apply log_ok_snoc; auto; fail).
  - destruct absolute; cbn [go s_log]; [rewrite app_nil_r; exact G|]. apply log_ok_snoc; auto. split; auto. apply D.
  - (* append *)
    cbn [go with_heap s_log]. apply log_ok_snoc; auto. split; auto.
    rewrite Forall_forall in Hp. intros K. apply Hp in K. simpl in K. lia.
  - (* remove *)
    pose proof (hstep_refines event_ltb event_eqb event_ltb_weak (s_heap s) (Remove e) (d_heap _ _ D)) as R.
    destruct (hstep event_ltb event_eqb (s_heap s) (Remove e)) as [h [out|out]]; destruct R as (R1 & R2 & R3);
      cbn [go with_heap s_log]; apply log_ok_snoc; auto; split; auto.
    + inversion R2 as [ | | |? ? x ? Hx HP| | | | | | ]; subst. apply event_eqb_eq in Hx. subst x.
      apply PI. apply (Permutation_in _ (Permutation_sym HP)). left; auto.
    + inversion R2 as [ | | | |? ? ? Hx HP| | | | | ]; subst. intros K. apply PI in K. apply Hx in K.
      assert (event_eqb e e = true) by (apply event_eqb_eq; auto). congruence.
  - (* PNext1 *)
    destruct (heap_bool (s_heap s)) eqn:B; cbn [go s_log]; [rewrite app_nil_r; exact G|].
    apply log_ok_snoc; auto. split; auto. intros e K. apply PI in K. unfold heap_bool in B.
    destruct (h_queue (s_heap s)); [destruct K | discriminate].
  - (* now *)
    cbn [go s_log]. apply log_ok_snoc; auto. split; auto. apply D.
  - destruct (heap_getitem event_ltb (s_heap s) (IInt 0)) as [[ev|]|]; auto. cbn [go s_log]. rewrite app_nil_r; exact G.
  - (* PNext4 *)
    destruct Hp as (n & tl & Q & H1 & H2 & H3).
    pose proof (is_heap_least event_ltb event_ltb_weak _ ev tl (d_heap _ _ D) Q) as HL.
    assert (Pe : pending (s_log s) ev) by (apply PI; rewrite Q; left; auto).
    destruct (Z.leb_spec dt 0) as [Hd|Hd].
    + cbn [go with_heap s_log]. apply log_ok_snoc; auto. split; auto. split; auto. split.
      * intros e' Pe' Hn. eapply ltb_first; eauto. apply HL. apply PI; auto.
      * rewrite <- (d_clock _ _ D). lia.
    + destruct b; cbn [go s_log]; [rewrite app_nil_r; exact G|].
      apply log_ok_snoc; auto. split; auto. split; [exists ev; auto|]. exists n. split; auto.
      intros e Pe'. apply PI in Pe'. apply HL in Pe'. unfold event_ltb in Pe'.
      destruct (Z.ltb_spec (e_time e) (e_time ev)); [discriminate|]. lia.
  - destruct b; cbn [go s_log]; apply log_ok_snoc; auto. split; auto.
  - destruct (s_flag s); cbn [go s_log]; rewrite app_nil_r; exact G.
  - destruct (_ || _)%bool; auto. cbn [go s_log]; rewrite app_nil_r; exact G.
  - (* bool *)
    cbn [go s_log]. apply log_ok_snoc; auto. split; auto. unfold heap_bool. destruct (h_queue (s_heap s)) as [|e q] eqn:Q.
    + split; [discriminate|]. intros (e & K). apply PI in K. destruct K.
    + split; auto. intros _. exists e. apply PI. left; auto.
  - (* queue *)
    cbn [go s_log]. apply log_ok_snoc; auto. split; auto.
    destruct (heap_queue_spec event_ltb event_ltb_weak (s_heap s)) as [P S].
    pose proof (queue_nodup _ _ D) as N.
    pose proof (Permutation_NoDup (Permutation_sym P) N) as N'.
    assert (I : forall e, In e (heap_queue event_ltb (s_heap s)) <-> pending (s_log s) e).
    { intros e. rewrite <- PI. split; apply Permutation_in; auto. symmetry; auto. }
    split; auto. split; auto. unfold ascending in S. revert N' I S. generalize (heap_queue event_ltb (s_heap s)).
    intros l N' I S.
    assert (I' : forall e, In e l -> pending (s_log s) e) by (intros; apply I; auto). clear I.
    induction S as [|a l S IH F]; constructor.
    + inversion N'; subst. apply IH; auto. intros; apply I'; right; auto.
    + rewrite Forall_forall in *. intros b Hb. inversion N'; subst.
      eapply ltb_first; eauto; [apply I'; left; auto | apply I'; right; auto | congruence].
Qed.

Lemma log_ok_sstep c0 s m : InvL s -> InvD c0 s -> log_ok c0 (s_log s) -> log_ok c0 (s_log (sstep s m)).
Proof.
  intros L D G. destruct m as [t c|t|t|d]; simpl.
  - destruct (s_pc s t) eqn:E; auto. cbn [go s_log]. apply log_ok_snoc; auto. simpl. apply holder_not; auto. rewrite E; auto.
  - apply log_ok_tstep; auto.
  - destruct (s_pc s t) eqn:E; auto. cbn [go s_log]. rewrite app_nil_r; auto.
  - destruct (Z.leb_spec 0 d); auto. cbn [s_log]. apply log_ok_snoc; auto.
Qed.

(** ** D: what each thread sees *)
Definition pre (t : tid) (c : call) (l : list act) : Prop :=
  exists l0 ns, calls_ok t l0 /\ l = l0 ++ ACall t c :: map (ANow t) ns.
Definition post (t : tid) (r : ret) (l : list act) : Prop :=
  exists l0 c ns a, calls_ok t l0 /\ l = l0 ++ ACall t c :: map (ANow t) ns ++ [a] /\ call_ok t c ns a r.
Definition thr (t : tid) (p : pc) (l : list act) : Prop :=
  match p with
  | Idle => calls_ok t l
  | PSched0 o tm a pr | PSched1 o tm a pr => exists l0, calls_ok t l0 /\ l = l0 ++ [ACall t (CSchedule o tm a pr)]
  | PSched2 o tm pr | PSched3 o tm pr =>
      exists l0 tm0 a ns, calls_ok t l0 /\ l = l0 ++ ACall t (CSchedule o tm0 a pr) :: map (ANow t) ns /\
        (if a then ns = [] /\ tm = tm0 else exists n, ns = [n] /\ tm = (tm0 + n)%Z)
  | PSched4 e | PSched4b e | PSched5 e | PSched6 e => post t (RetEvent e) l
  | PCan0 e | PCan1 e => pre t (CCancel e) l
  | PCan2 | PCan2b | PCan3 | PCan4 => post t RetNone l
  | PCanErr1 | PCanErr2 => post t RetValueError l
  | PNext0 b | PNext1 b | PNext2 b | PNext3 b _ | PNext4 b _ _ => pre t (CNext b) l
  | PNextRet1 ev | PNextRet2 ev => post t (RetObj (e_obj ev)) l
  | PNextStop1 | PNextStop2 => post t RetStop l
  | PNext5 b _ | PNext6 b _ => if b then pre t (CNext true) l else post t RetStop l
  | PSleep _ | PWait _ _ => pre t (CNext true) l
  | PBool0 | PBool1 => pre t CBool l
  | PBool2 b | PBool3 b => post t (RetBool b) l
  | PQueue0 | PQueue1 => pre t CQueue l
  | PQueue2 q | PQueue3 q => post t (RetQueue q) l
  end.
Definition InvT (s : sstate) : Prop := forall t, thr t (s_pc s t) (of_thread t (s_log s)).

Lemma of_thread_mine t u acts : forallb (mine t) acts = true -> u <> t -> of_thread u acts = [].
Proof.
  intros H Hu. induction acts as [|a acts IH]; simpl in *; auto. apply andb_prop in H. destruct H as [H1 H2].
  rewrite IH by auto. destruct a; auto; simpl in H1; apply Nat.eqb_eq in H1; subst; destruct (Nat.eqb_spec t u); congruence.
Qed.
Lemma thr_woken t p l : thr t p l -> thr t (woken_pc p) l.
Proof. destruct p; simpl; auto. Qed.

Lemma InvT_gen s s' t acts : InvT s -> s_log s' = s_log s ++ acts -> forallb (mine t) acts = true ->
  (forall u, u <> t -> s_pc s' u = s_pc s u \/ s_pc s' u = woken_pc (s_pc s u)) ->
  thr t (s_pc s' t) (of_thread t (s_log s) ++ of_thread t acts) -> InvT s'.
Proof.
  intros T E M O H u. rewrite E, of_thread_app. destruct (Nat.eq_dec u t) as [->|Hu]; auto.
  rewrite (of_thread_mine t u acts) by auto. rewrite app_nil_r.
  destruct (O u Hu) as [-> | ->]; [apply T | apply thr_woken, T].
Qed.

Lemma InvT_go s t p acts : InvT s -> forallb (mine t) acts = true ->
  thr t p (of_thread t (s_log s) ++ of_thread t acts) -> InvT (go s t p acts).
Proof.
  intros T M H. apply InvT_gen with (s := s) (t := t) (acts := acts); auto; simpl.
  - intros u Hu. left. apply setpc_other; auto.
  - rewrite setpc_same. auto.
Qed.
Lemma InvT_same s s' : s_log s' = s_log s -> (forall u, s_pc s' u = s_pc s u \/ s_pc s' u = woken_pc (s_pc s u)) -> InvT s -> InvT s'.
Proof.
  intros E O T u. rewrite E. destruct (O u) as [-> | ->]; [apply T | apply thr_woken, T].
Qed.

Lemma of_thread_eq t a : mine t a = true -> match a with AAcq _ | ARel _ | AWake _ | ASleep _ _ => False | _ => True end -> of_thread t [a] = [a].
Proof. intros H K. destruct a; simpl in *; try tauto; try discriminate; rewrite H; auto. Qed.
Lemma pre_now t c l v : pre t c l -> pre t c (l ++ [ANow t v]).
Proof.
  intros (l0 & ns & H & ->). exists l0, (ns ++ [v]). split; auto. rewrite map_app. simpl.
  rewrite <- app_assoc. reflexivity.
Qed.
Lemma pre_post t c l a r : pre t c l -> (forall ns, call_ok t c ns a r) -> post t r (l ++ [a]).
Proof.
  intros (l0 & ns & H & ->) K. exists l0, c, ns, a. split; auto. split; auto. rewrite <- app_assoc. reflexivity.
Qed.
Lemma post_ret t r l : post t r l -> calls_ok t (l ++ [ARet t r]).
Proof.
  intros (l0 & c & ns & a & H & -> & K). rewrite <- app_assoc. simpl. rewrite <- app_assoc. simpl.
  apply co_snoc; auto.
Qed.

Lemma InvT_tstep s t : InvT s -> InvT (tstep s t).
Proof.
  intros T. pose proof (T t) as Ht. unfold tstep.
  assert (R1 : (t =? t) = true) by apply Nat.eqb_refl.
  assert (TW : InvT (wake_all (with_flag s true))) by (revert T; apply InvT_same; [auto | intros u; right; auto]).
  assert (TF : forall b, InvT (with_flag s b)) by (intros b; revert T; apply InvT_same; [auto | intros u; left; auto]).
  assert (TL : forall b, InvT (with_lock s b)) by (intros b; revert T; apply InvT_same; [auto | intros u; left; auto]).
  assert (TC : forall b, InvT (with_counter s b)) by (intros b; revert T; apply InvT_same; [auto | intros u; left; auto]).
  assert (TH : forall b, InvT (with_heap s b)) by (intros b; revert T; apply InvT_same; [auto | intros u; left; auto]).
  destruct (s_pc s t) eqn:E; auto; cbn [thr] in Ht;
  try (unfold acquire; destruct (s_lock s) eqn:El; [exact T|]; apply InvT_go; [apply TL | simpl; rewrite R1; auto | cbn [with_lock s_log of_thread filter]; rewrite app_nil_r; exact Ht]);
  try (unfold release; apply InvT_go; [apply TL | simpl; rewrite R1; auto | cbn [with_lock s_log of_thread filter]; rewrite app_nil_r; exact Ht]);
  try (apply InvT_go; [auto | simpl; rewrite ?R1; auto; fail | cbn [with_flag with_heap with_counter wake_all s_log of_thread filter]; rewrite ?R1, ?app_nil_r; cbn [thr]; first [exact Ht | apply post_ret; exact Ht]]).
  - destruct Ht as (l0 & H1 & H2). destruct absolute; (apply InvT_go; [auto | simpl; rewrite ?R1; auto | ]).
    + simpl. rewrite app_nil_r. exists l0, time, true, []. repeat split; auto.
    + cbn [of_thread filter]. rewrite R1. cbn [thr]. exists l0, time, false, [s_clock s]. split; auto.
      split; [rewrite H2, <- app_assoc; reflexivity|]. exists (s_clock s). auto.
  - destruct Ht as (l0 & tm0 & a & ns & H1 & H2 & H3).
    apply InvT_go; [auto | simpl; rewrite ?R1; auto | ].
    cbn [with_heap s_log of_thread filter]. rewrite R1. cbn [thr].
    exists l0, (CSchedule o tm0 a pr), ns, (ASched t (mkEvent 0 o time pr (s_counter s))). split; auto. split.
    + fold (of_thread t (s_log s)). rewrite H2, <- app_assoc. reflexivity.
    + simpl. eexists. repeat (split; [eauto|]). simpl. destruct a; auto.
  - destruct (hstep event_ltb event_eqb (s_heap s) (Remove e)) as [h [out|out]];
      (apply InvT_go; [auto | simpl; rewrite ?R1; auto | ]); cbn [with_heap s_log of_thread filter]; rewrite R1; cbn [thr];
      eapply pre_post; eauto; intros ns; simpl; auto.
  - destruct (heap_bool (s_heap s)).
    + apply InvT_go; auto. simpl. rewrite app_nil_r; auto.
    + apply InvT_go; [auto | simpl; rewrite R1; auto |]. cbn [of_thread filter]. rewrite R1. cbn [thr].
      eapply pre_post; eauto; intros ns; simpl; auto.
  - apply InvT_go; [auto | simpl; rewrite R1; auto |]. cbn [of_thread filter]. rewrite R1. cbn [thr]. apply pre_now; auto.
  - destruct (heap_getitem event_ltb (s_heap s) (IInt 0)) as [[ev|]|]; auto. apply InvT_go; auto. simpl. rewrite app_nil_r; auto.
  - destruct (dt <=? 0)%Z.
    + apply InvT_go; [auto | simpl; rewrite R1; auto |]. cbn [with_heap s_log of_thread filter]. rewrite R1. cbn [thr].
      eapply pre_post; eauto; intros ns; simpl; eauto.
    + destruct b; (apply InvT_go; [auto | simpl; rewrite ?R1; auto |]); cbn [of_thread filter]; rewrite ?R1, ?app_nil_r; cbn [thr]; auto.
      eapply pre_post; eauto; intros ns; simpl; auto 6.
  - destruct b; (apply InvT_go; [auto | simpl; rewrite ?R1; auto |]); cbn [of_thread filter]; rewrite ?R1, ?app_nil_r; cbn [thr]; auto.
    apply post_ret; auto.
  - destruct (s_flag s); (apply InvT_go; [auto | simpl; auto |]); cbn [of_thread filter]; rewrite ?app_nil_r; cbn [thr]; auto.
  - destruct (_ || _)%bool; auto. (apply InvT_go; [auto | simpl; auto |]); cbn [of_thread filter]; rewrite ?app_nil_r; cbn [thr]; auto.
  - apply InvT_go; [auto | simpl; rewrite R1; auto |]. cbn [of_thread filter]. rewrite R1. cbn [thr].
    eapply pre_post; eauto; intros ns; simpl; eauto.
  - apply InvT_go; [auto | simpl; rewrite R1; auto |]. cbn [of_thread filter]. rewrite R1. cbn [thr].
    eapply pre_post; eauto; intros ns; simpl; eauto.
Qed.

Lemma InvT_sstep s m : InvT s -> InvT (sstep s m).
Proof.
  intros T. destruct m as [t c|t|t|d]; simpl.
  - pose proof (T t) as Ht. destruct (s_pc s t) eqn:E; auto. cbn [thr] in Ht.
    apply InvT_go; [auto | simpl; rewrite Nat.eqb_refl; auto |]. cbn [of_thread filter]. rewrite Nat.eqb_refl.
    destruct c; cbn [start thr]; try (exists (of_thread t (s_log s)), []; split; [exact Ht | reflexivity]).
    exists (of_thread t (s_log s)); split; auto.
  - apply InvT_tstep; auto.
  - pose proof (T t) as Ht. destruct (s_pc s t) eqn:E; auto. apply InvT_go; auto. simpl. rewrite app_nil_r. auto.
  - destruct (0 <=? d)%Z; auto. intros u. simpl. rewrite of_thread_app. simpl. rewrite app_nil_r. apply T.
Qed.

(** ** all together *)
Definition Inv (c0 : Z) (s : sstate) : Prop := InvL s /\ InvD c0 s /\ log_ok c0 (s_log s) /\ InvT s.
Lemma Inv_init c0 : Inv c0 (sinit c0).
Proof.
  split; [|split; [|split]].
  - split; auto. intros u. simpl. split; discriminate.
  - constructor; simpl; auto; try constructor. intros d j Hj. simpl in Hj. lia.
  - intros l1 a l2 E. destruct l1; discriminate.
  - intros t. constructor.
Qed.
Lemma Inv_step c0 s m : Inv c0 s -> Inv c0 (sstep s m).
Proof.
  intros (L & D & G & T). split; [|split; [|split]].
  - apply InvL_sstep; auto.
  - apply InvD_sstep; auto.
  - apply log_ok_sstep; auto.
  - apply InvT_sstep; auto.
Qed.
Lemma Inv_run c0 ms : forall s, Inv c0 s -> Inv c0 (srun s ms).
Proof. induction ms as [|m ms IH]; intros s H; simpl; auto. apply IH, Inv_step; auto. Qed.
Lemma Inv_reach c0 ms : Inv c0 (srun (sinit c0) ms).
Proof. apply Inv_run, Inv_init. Qed.
