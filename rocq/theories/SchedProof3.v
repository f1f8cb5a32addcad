(** Proofs about the wake-up event of the scheduler: the flag is set only while some thread is
    inside wake(), and a blocked thread whose event is due returns it. *)
From Verif Require Import PyBase PyBaseProof HeapModel HeapSpec HeapProof SchedModel SchedSpec SchedProof SchedProof2.
Require Import ZifyBool ZifyNat.

Definition signalling (p : pc) : bool := match p with PSched4b _ | PCan2b => true | _ => false end.
Definition InvF (s : sstate) : Prop := s_flag s = true -> exists u, signalling (s_pc s u) = true.

Lemma InvF_init c : InvF (sinit c).
Proof. intros H. discriminate. Qed.
(** a step that leaves the flag alone and is not made by a signalling thread *)
Lemma InvF_same s s' t : s_flag s' = s_flag s -> (forall u, u <> t -> s_pc s' u = s_pc s u) -> signalling (s_pc s t) = false -> InvF s -> InvF s'.
Proof.
  intros E1 E2 N H F. rewrite E1 in F. destruct (H F) as [u Hu]. exists u. rewrite E2; auto. intros ->. congruence.
Qed.
Lemma InvF_tstep s t : InvF s -> InvF (tstep s t).
Proof.
  intros H. unfold tstep. destruct (s_pc s t) eqn:E; auto;
  try (unfold acquire; destruct (s_lock s); [exact H|]);
  try (apply InvF_same with (s := s) (t := t); [reflexivity | intros u Hu; cbn; now apply setpc_other | rewrite E; reflexivity | exact H]).
  - destruct absolute; (apply InvF_same with (s := s) (t := t); [reflexivity | intros u Hu; cbn; now apply setpc_other | rewrite E; reflexivity | exact H]).
  - intros _. exists t. cbn. now rewrite setpc_same.
  - intros F. discriminate.
  - destruct (hstep event_ltb event_eqb (s_heap s) (Remove e)) as [h [r|r]]; (apply InvF_same with (s := s) (t := t); [reflexivity | intros u Hu; cbn; now apply setpc_other | rewrite E; reflexivity | exact H]).
  - intros _. exists t. cbn. now rewrite setpc_same.
  - intros F. discriminate.
  - destruct (heap_bool (s_heap s)); (apply InvF_same with (s := s) (t := t); [reflexivity | intros u Hu; cbn; now apply setpc_other | rewrite E; reflexivity | exact H]).
  - destruct (heap_getitem event_ltb (s_heap s) (IInt 0%Z)) as [[ev|]|]; auto; (apply InvF_same with (s := s) (t := t); [reflexivity | intros u Hu; cbn; now apply setpc_other | rewrite E; reflexivity | exact H]).
  - destruct (dt <=? 0)%Z; (apply InvF_same with (s := s) (t := t); [reflexivity | intros u Hu; cbn; now apply setpc_other | rewrite E; reflexivity | exact H]).
  - destruct b; (apply InvF_same with (s := s) (t := t); [reflexivity | intros u Hu; cbn; now apply setpc_other | rewrite E; reflexivity | exact H]).
  - destruct (s_flag s) eqn:F; (apply InvF_same with (s := s) (t := t); [reflexivity | intros u Hu; cbn; now apply setpc_other | rewrite E; reflexivity | exact H]).
  - destruct (_ || _)%bool; auto; (apply InvF_same with (s := s) (t := t); [reflexivity | intros u Hu; cbn; now apply setpc_other | rewrite E; reflexivity | exact H]).
Qed.
Lemma InvF_sstep s m : InvF s -> InvF (sstep s m).
Proof.
  intros H. destruct m as [t c|t|t|d]; cbn [sstep].
  - destruct (s_pc s t) eqn:E; auto. apply InvF_same with (s := s) (t := t); [reflexivity | intros u Hu; cbn; now apply setpc_other | rewrite E; reflexivity | exact H].
  - now apply InvF_tstep.
  - destruct (s_pc s t) eqn:E; auto. apply InvF_same with (s := s) (t := t); [reflexivity | intros u Hu; cbn; now apply setpc_other | rewrite E; reflexivity | exact H].
  - destruct (0 <=? d)%Z; auto.
Qed.
Lemma InvF_reach c0 ms : InvF (srun (sinit c0) ms).
Proof.
  assert (G : forall s, InvF s -> InvF (srun s ms)); [|apply G, InvF_init].
  unfold srun. induction ms as [|m ms IH]; intros s H; cbn; auto. apply IH. now apply InvF_sstep.
Qed.
(** conversely the flag is set while a thread is inside wake() *)
Definition InvG (s : sstate) : Prop := forall u, signalling (s_pc s u) = true -> s_flag s = true.
Lemma signalling_crit p : signalling p = true -> crit p = true.
Proof. destruct p; cbn; auto; discriminate. Qed.
Lemma InvG_go s s' t p : InvG s -> s_flag s' = s_flag s -> (forall u, u <> t -> s_pc s' u = s_pc s u) -> s_pc s' t = p -> signalling p = false -> InvG s'.
Proof. intros H E1 E2 E3 N u Hu. rewrite E1. destruct (Nat.eq_dec u t) as [->|Ne]; [congruence|]. rewrite E2 in Hu by auto. eauto. Qed.
Lemma signalling_wake p : signalling (woken_pc p) = signalling p.
Proof. destruct p; auto. Qed.
Lemma InvG_tstep s t : InvL s -> InvG s -> InvG (tstep s t).
Proof.
  intros L H. unfold tstep.
  assert (One : forall u, crit (s_pc s t) = true -> u <> t -> signalling (s_pc s u) = false).
  { intros u C Ne. destruct (signalling (s_pc s u)) eqn:E; auto. apply signalling_crit in E. destruct L as [_ L]. apply L in E. apply L in C. congruence. }
  destruct (s_pc s t) eqn:E; auto;
  try (unfold acquire; destruct (s_lock s); [exact H|]);
  try (apply InvG_go with (s := s) (t := t) (p := match s_pc s t with _ => Idle end) ; fail);
  try (eapply InvG_go with (s := s) (t := t); [exact H | reflexivity | intros u Hu; cbn; now apply setpc_other | cbn; rewrite setpc_same; reflexivity | reflexivity]).
  - destruct absolute; (eapply InvG_go with (s := s) (t := t); [exact H | reflexivity | intros u Hu; cbn; now apply setpc_other | cbn; rewrite setpc_same; reflexivity | reflexivity]).
  - intros u Hu. reflexivity.
  - intros u Hu. exfalso. cbn in Hu. destruct (Nat.eq_dec u t) as [->|Ne]; [rewrite setpc_same in Hu; discriminate|]. rewrite setpc_other in Hu by auto. rewrite One in Hu; auto; discriminate.
  - destruct (hstep event_ltb event_eqb (s_heap s) (Remove e)) as [h [r|r]]; (eapply InvG_go with (s := s) (t := t); [exact H | reflexivity | intros u Hu; cbn; now apply setpc_other | cbn; rewrite setpc_same; reflexivity | reflexivity]).
  - intros u Hu. reflexivity.
  - intros u Hu. exfalso. cbn in Hu. destruct (Nat.eq_dec u t) as [->|Ne]; [rewrite setpc_same in Hu; discriminate|]. rewrite setpc_other in Hu by auto. rewrite One in Hu; auto; discriminate.
  - destruct (heap_bool (s_heap s)); (eapply InvG_go with (s := s) (t := t); [exact H | reflexivity | intros u Hu; cbn; now apply setpc_other | cbn; rewrite setpc_same; reflexivity | reflexivity]).
  - destruct (heap_getitem event_ltb (s_heap s) (IInt 0%Z)) as [[ev|]|]; auto; (eapply InvG_go with (s := s) (t := t); [exact H | reflexivity | intros u Hu; cbn; now apply setpc_other | cbn; rewrite setpc_same; reflexivity | reflexivity]).
  - destruct (dt <=? 0)%Z; (eapply InvG_go with (s := s) (t := t); [exact H | reflexivity | intros u Hu; cbn; now apply setpc_other | cbn; rewrite setpc_same; reflexivity | reflexivity]).
  - destruct b; (eapply InvG_go with (s := s) (t := t); [exact H | reflexivity | intros u Hu; cbn; now apply setpc_other | cbn; rewrite setpc_same; reflexivity | reflexivity]).
  - destruct (s_flag s) eqn:F; (eapply InvG_go with (s := s) (t := t); [exact H | reflexivity | intros u Hu; cbn; now apply setpc_other | cbn; rewrite setpc_same; reflexivity | reflexivity]).
  - destruct (_ || _)%bool; auto; (eapply InvG_go with (s := s) (t := t); [exact H | reflexivity | intros u Hu; cbn; now apply setpc_other | cbn; rewrite setpc_same; reflexivity | reflexivity]).
Qed.
Lemma InvG_sstep s m : InvL s -> InvG s -> InvG (sstep s m).
Proof.
  intros L H. destruct m as [t c|t|t|d]; cbn [sstep].
  - destruct (s_pc s t) eqn:E; auto. eapply InvG_go with (s := s) (t := t); [exact H | reflexivity | intros u Hu; cbn; now apply setpc_other | cbn; rewrite setpc_same; reflexivity | destruct c; reflexivity].
  - now apply InvG_tstep.
  - destruct (s_pc s t) eqn:E; auto. eapply InvG_go with (s := s) (t := t); [exact H | reflexivity | intros u Hu; cbn; now apply setpc_other | cbn; rewrite setpc_same; reflexivity | reflexivity].
  - destruct (0 <=? d)%Z; auto.
Qed.
Lemma InvG_reach c0 ms : InvG (srun (sinit c0) ms).
Proof.
  assert (G : forall s, InvL s -> InvG s -> InvG (srun s ms)).
  { unfold srun. induction ms as [|m ms IH]; intros s L H; cbn; auto. apply IH; [now apply InvL_sstep | now apply InvG_sstep]. }
  apply G; [exact (proj1 (Inv_reach c0 []))|]. intros u Hu. discriminate.
Qed.
(** the flag says exactly that somebody is inside wake() *)
Lemma flag_reach c0 ms : let s := srun (sinit c0) ms in s_flag s = true <-> exists u, signalling (s_pc s u) = true.
Proof. intros s. split; [apply InvF_reach|]. intros [u Hu]. eapply InvG_reach; eauto. Qed.
Lemma flag_free c0 ms : let s := srun (sinit c0) ms in s_lock s = None -> s_flag s = false.
Proof.
  intros s H. destruct (s_flag s) eqn:F; auto. apply InvF_reach in F. destruct F as [u Hu]. apply signalling_crit in Hu.
  destruct (Inv_reach c0 ms) as [[_ L] _]. fold s in L. apply L in Hu. congruence.
Qed.

(** A blocked thread that may wake, with an event that is due: it returns an event. *)
Lemma srun_step s t k : srun s (repeat (MStep t) (S k)) = srun (tstep s t) (repeat (MStep t) k).
Proof. reflexivity. Qed.
Lemma go_pc s t p a : s_pc (go s t p a) t = p.
Proof. cbn. apply setpc_same. Qed.
Lemma due_returned c0 s t d w e : InvD c0 s -> s_lock s = None -> s_pc s t = PWait d w -> w = true \/ (d <= s_clock s)%Z ->
  pending (s_log s) e -> (e_time e <= s_clock s)%Z ->
  exists e' l, let s' := srun s (repeat (MStep t) 8) in s_pc s' t = Idle /\ s_lock s' = None /\
    s_log s' = s_log s ++ l ++ [ARet t (RetObj (e_obj e'))] /\ yielded l = [e'] /\ pending (s_log s) e' /\ (e_time e' <= s_clock s)%Z.
Proof.
  intros D Lk P W Pe Te. apply (pending_iff c0 s e D) in Pe.
  destruct (h_queue (s_heap s)) as [|x tl] eqn:Q; [destruct Pe|].
  assert (Lx : (e_time x <= s_clock s)%Z).
  { pose proof (is_heap_least event_ltb event_ltb_weak _ x tl (d_heap _ _ D) Q e) as M. rewrite Q in M. specialize (M Pe). unfold event_ltb in M.
    destruct (Z.ltb_spec (e_time e) (e_time x)); [discriminate|]. lia. }
  exists x. remember (srun s (repeat (MStep t) 8)) as s' eqn:E.
  assert (WB : (w || (d <=? s_clock s)%Z)%bool = true) by (destruct W as [->|W]; auto; apply Z.leb_le in W; rewrite W; apply orb_true_r).
  assert (HB : heap_bool (s_heap s) = true) by (unfold heap_bool; rewrite Q; reflexivity).
  assert (TB : (e_time x - s_clock s <=? 0)%Z = true) by lia.
  rewrite srun_step in E. replace (tstep s t) with (go s t (PNext0 true) []) in E by (unfold tstep; rewrite P, WB; reflexivity).
  set (s1 := go s t (PNext0 true) []) in E. rewrite srun_step in E.
  replace (tstep s1 t) with (go (with_lock s1 (Some t)) t (PNext1 true) [AAcq t]) in E by (unfold tstep, s1; rewrite go_pc; unfold acquire; cbn [s_lock go]; rewrite Lk; reflexivity).
  set (s2 := go (with_lock s1 (Some t)) t (PNext1 true) [AAcq t]) in E. rewrite srun_step in E.
  replace (tstep s2 t) with (go s2 t (PNext2 true) []) in E by (unfold tstep, s2; rewrite go_pc; cbn [s_heap go with_lock s1]; rewrite HB; reflexivity).
  set (s3 := go s2 t (PNext2 true) []) in E. rewrite srun_step in E.
  replace (tstep s3 t) with (go s3 t (PNext3 true (s_clock s)) [ANow t (s_clock s)]) in E by (unfold tstep, s3; rewrite go_pc; reflexivity).
  set (s4 := go s3 t (PNext3 true (s_clock s)) [ANow t (s_clock s)]) in E. rewrite srun_step in E.
  replace (tstep s4 t) with (go s4 t (PNext4 true x (e_time x - s_clock s)) []) in E by (unfold tstep, s4; rewrite go_pc; cbn [s_heap go with_lock s3 s2 s1]; rewrite (getitem0 _ x tl Q); reflexivity).
  set (s5 := go s4 t (PNext4 true x (e_time x - s_clock s)) []) in E. rewrite srun_step in E.
  replace (tstep s5 t) with (go (with_heap s5 (fst (hstep event_ltb event_eqb (s_heap s5) Popleft))) t (PNextRet1 x) [AYield t x]) in E by (unfold tstep; replace (s_pc s5 t) with (PNext4 true x (e_time x - s_clock s)) by (symmetry; apply go_pc); cbv beta iota; rewrite TB; reflexivity).
  set (s6 := go (with_heap s5 (fst (hstep event_ltb event_eqb (s_heap s5) Popleft))) t (PNextRet1 x) [AYield t x]) in E. rewrite srun_step in E.
  replace (tstep s6 t) with (release s6 t (PNextRet2 x)) in E by (unfold tstep, s6; rewrite go_pc; reflexivity).
  set (s7 := release s6 t (PNextRet2 x)) in E. rewrite srun_step in E.
  replace (tstep s7 t) with (go s7 t Idle [ARet t (RetObj (e_obj x))]) in E by (unfold tstep, s7, release; rewrite go_pc; reflexivity).
  change (s' = go s7 t Idle [ARet t (RetObj (e_obj x))]) in E. subst s'.
  exists [AAcq t; ANow t (s_clock s); AYield t x; ARel t]. cbv zeta. split; [apply go_pc|]. split; [reflexivity|]. split; [cbn; rewrite <- !app_assoc; reflexivity|]. split; auto. split; auto.
  apply (pending_iff c0 s x D). rewrite Q. left. auto.
Qed.
