(** The lockstep of sched.scheduler and Scheduler (C134): heapq does the same to two lists whose elements compare alike. *)
From Verif Require Import PyBaseProof HeapSpec HeapProof SregProof.
From Verif Require Export SchedlibModel.

Section Map.
  Context {A B : Type} (f : A -> B) (la : A -> A -> bool) (lb : B -> B -> bool).
  Hypothesis H : forall x y, lb (f x) (f y) = la x y.
  Lemma map_upd' l i x : map f (upd l i x) = upd (map f l) i (f x).
  Proof. revert i. induction l as [|y l IH]; intros [|i]; cbn; auto. now rewrite IH. Qed.
  Lemma siftdown_loop_map n : forall l x s p, map f (siftdown_loop la n l x s p) = siftdown_loop lb n (map f l) (f x) s p.
  Proof.
    induction n as [|n IH]; intros l x s p; cbn [siftdown_loop]; [apply map_upd'|]. destruct (s <? p); [|apply map_upd'].
    rewrite map_nth, H. destruct (la _ _); [|apply map_upd']. now rewrite IH, map_upd'.
  Qed.
  Lemma siftdown_map l s p : map f (siftdown la l s p) = siftdown lb (map f l) s p.
  Proof. unfold siftdown. rewrite nth_error_map. destruct (nth_error l p); cbn [option_map]; auto. apply siftdown_loop_map. Qed.
  Lemma siftup_loop_map n : forall l x e p, siftup_loop lb n (map f l) (f x) e p = (map f (fst (siftup_loop la n l x e p)), snd (siftup_loop la n l x e p)).
  Proof.
    induction n as [|n IH]; intros l x e p; cbn [siftup_loop]; auto. destruct (2 * p + 1 <? e); auto.
    rewrite !map_nth, H. rewrite <- map_upd'. apply IH.
  Qed.
  Lemma siftup_map l p : map f (siftup la l p) = siftup lb (map f l) p.
  Proof.
    unfold siftup. rewrite nth_error_map. destruct (nth_error l p) as [x|]; cbn [option_map]; auto. rewrite map_length, siftup_loop_map.
    destruct (siftup_loop la _ l x _ p) as (h, q). cbn [fst snd]. now rewrite siftdown_map, map_upd'.
  Qed.
  Lemma heapify_map l : map f (heapify la l) = heapify lb (map f l).
  Proof. unfold heapify. rewrite map_length. generalize (length l / 2) as n. intros n. revert l. induction n as [|n IH]; intros l; cbn [heapify_loop]; auto. now rewrite IH, siftup_map. Qed.
  Lemma heappush_map l x : map f (heappush la l x) = heappush lb (map f l) (f x).
  Proof. unfold heappush. now rewrite siftdown_map, map_app, !app_length, map_length. Qed.
  Lemma heappop_map l : heappop lb (map f l) = match heappop la l with Some (x, q) => Some (f x, map f q) | None => None end.
  Proof.
    unfold heappop. rewrite <- map_rev. destruct (rev l) as [|z r]; cbn [map]; auto. rewrite <- map_rev. destruct (rev r) as [|y t]; cbn [map]; auto.
    now rewrite siftup_map.
  Qed.
End Map.

Section Lockstep.
  Context {T N I P O : Type} (K : clockwork T N I) (p_lt p_gt : P -> P -> bool) (L : sched_ops T N P O).
  Context (program : list (obs T N I P O) -> move T P O) (clock : list (obs T N I P O) -> N).
  Notation sevent := (@sevent T P O).
  Notation event_lt := (event_lt (O := O) K p_lt p_gt).
  Notation tuple_lt := (tuple_lt (O := O) (N := N) (I := I) K p_lt L).
  Notation tuple_eq := (tuple_eq L).
  Notation SS := (@sstate T N I P O). Notation BS := (@bstate T N I P O).
  Hypothesis AG : alike_ops K p_lt p_gt L.
  Hypothesis OWN : forall h e, program h <> CancelOther e.
  Definition ordered : Prop := orderly (t_lt K) (t_gt K) /\ orderly p_lt p_gt.
  Hypothesis Q : (forall h, program h <> AskTheQueue) \/ ordered.

  Definition conv (e : sevent) : event T P O := mkEvent (q_owner e) (q_action e) (q_time e) (q_priority e) (q_sequence e + 1).
  Lemma conv_lt a b : event_lt (conv a) (conv b) = tuple_lt a b.
  Proof.
    destruct AG as (A1 & A2 & _). unfold SregModel.event_lt, SchedlibModel.tuple_lt, conv. cbn. rewrite A1, A2.
    destruct (t_lt K _ _), (t_gt K _ _); cbn; auto. destruct (p_lt _ _), (p_gt _ _); cbn; auto.
    destruct (Z.ltb_spec (q_sequence a + 1) (q_sequence b + 1)), (Z.ltb_spec (q_sequence a) (q_sequence b)); auto; lia.
  Qed.
  Lemma conv_view e : bview (conv e) = sview e.
  Proof. unfold bview, sview, conv. cbn. f_equal. lia. Qed.

  Definition alike (s : SS) (b : BS) : Prop :=
    b_trace b = erase (s_trace s) /\ b_over b = s_over s /\ b_stack b = s_stack s /\
    h_queue (r_heap (b_sched b)) = map conv (s_queue s) /\ scheduled (r_log (b_sched b)) = map conv (s_issued s) /\ r_counter (b_sched b) = s_next s /\
    Forall (fun e => q_owner e = 0 /\ (q_sequence e < s_next s)%Z) (s_issued s) /\ incl (s_queue s) (s_issued s) /\
    NoDup (map q_sequence (s_queue s)) /\ (strict_weak event_lt -> is_heap event_lt (map conv (s_queue s))).

  Lemma erase_app (a b : list (obs T N I P O)) : erase (a ++ b) = erase a ++ erase b.
  Proof. apply flat_map_app. Qed.
  Lemma last_snoc {X} (l : list X) x : last (map Some (l ++ [x])) None = Some x.
  Proof. rewrite map_app. apply last_last. Qed.

  (** what a block of big does, seen from the queue of sched *)
  Lemma remove_alike e q iss n : Forall (fun e => q_owner e = 0 /\ (q_sequence e < n)%Z) iss -> incl q iss -> In e iss ->
    list_remove same (conv e) (map conv q) = match list_remove tuple_eq e q with Some q => Some (map conv q) | None => None end.
  Proof.
    intros F S E. rewrite Forall_forall in F. destruct (F e E) as (E1 & _). induction q as [|x q IH]; cbn [map list_remove]; auto.
    assert (X : same (conv x) (conv e) = tuple_eq x e).
    { unfold same, SchedlibModel.tuple_eq. cbn. destruct (F x (S x (or_introl eq_refl))) as (F1 & _). rewrite E1, F1. cbn.
      replace (q_sequence x + 1 =? q_sequence e + 1)%Z with (q_sequence x =? q_sequence e)%Z by (destruct (Z.eqb_spec (q_sequence x) (q_sequence e)), (Z.eqb_spec (q_sequence x + 1) (q_sequence e + 1)); auto; lia).
      destruct (_ =? _)%Z; cbn; auto. now rewrite andb_false_r. }
    rewrite X. destruct (tuple_eq x e); auto. rewrite IH by (intros y Y; apply S; now right). now destruct (list_remove tuple_eq e q).
  Qed.
  Lemma remove_perm e q q' : list_remove tuple_eq e q = Some q' -> exists x, Permutation q (x :: q').
  Proof. intros E. pose proof (list_remove_spec tuple_eq e q) as R. rewrite E in R. destruct R as (x & _ & R). eauto. Qed.

  Lemma alike_log s b l l' : alike s b -> l' = erase l -> alike (slog s l) (blog b l').
  Proof. intros (A1 & A2 & A) ->. split; [|split; [exact A2|exact A]]. cbn -[erase]. now rewrite A1, erase_app. Qed.
  Lemma alike_stack s b k : alike s b -> alike (sstacked s k) (bstacked b k).
  Proof. intros (A1 & A2 & A3 & A). repeat (split; [assumption || reflexivity|]). exact A. Qed.

  Lemma alike_enterabs s b t p o : alike s b -> alike (sched_enterabs K p_lt L s t p o) (big_enterabs K p_lt p_gt b t p o).
  Proof.
    intros (A1 & A2 & A3 & A4 & A5 & A6 & A7 & A8 & A9 & A10).
    unfold big_enterabs, block_of. cbn [SregModel.step r_log]. rewrite last_snoc. unfold sched_enterabs, blog, alike. cbn [b_trace b_over b_stack b_sched r_heap r_log r_counter s_trace s_over s_stack s_queue s_issued s_next].
    set (e := mkSevent 0 t p (s_next s) o).
    assert (E : mkEvent 0 o t p (r_counter (b_sched b) + 1) = conv e) by (unfold conv, e; cbn; now rewrite A6).
    rewrite E, conv_view. cbn [hstep fst bump h_queue]. rewrite A4.
    split; [rewrite A1, erase_app; reflexivity|]. split; [exact A2|]. split; [exact A3|].
    assert (M : map conv (heappush tuple_lt (s_queue s) e) = heappush event_lt (map conv (s_queue s)) (conv e)) by (apply heappush_map, conv_lt).
    pose proof (heappush_perm tuple_lt (s_queue s) e) as PM.
    split; [now rewrite M|]. split; [rewrite scheduled_app, A5, map_app; reflexivity|]. split; [now rewrite A6|].
    split; [apply Forall_app; split; [eapply Forall_impl; [|exact A7]; cbn; intros x (X1 & X2); split; auto; lia|repeat constructor; cbn; lia]|].
    split; [intros x X; apply (Permutation_in _ PM) in X as [<-|X]; apply in_app_iff; [right; now left|left; auto]|].
    split.
    - eapply Permutation_NoDup; [symmetry; apply Permutation_map, PM|]. cbn. constructor; auto. intros X. apply in_map_iff in X as (x & X1 & X2). apply A8 in X2.
      rewrite Forall_forall in A7. destruct (A7 x X2). lia.
    - intros W. rewrite M. apply heappush_spec; auto.
  Qed.
  Lemma alike_enter s b t p o : alike s b -> alike (sched_enter K p_lt L clock s t p o) (big_enter K p_lt p_gt clock b t p o).
  Proof.
    intros A. pose proof A as (A1 & _). unfold sched_enter. rewrite <- A1. 
    apply (alike_enterabs _ (blog b [Clock (clock (b_trace b))])). now apply alike_log.
  Qed.
  Lemma alike_cancel s b e : alike s b -> In e (s_issued s) -> alike (sched_cancel K p_lt L s e) (big_cancel K p_lt p_gt b (conv e)).
  Proof.
    intros A E. pose proof A as (A1 & A2 & A3 & A4 & A5 & A6 & A7 & A8 & A9 & A10).
    unfold big_cancel, block_of, sched_cancel. cbn [SregModel.step]. cbn [hstep]. rewrite A4, (remove_alike e _ _ _ A7 A8 E).
    destruct (list_remove tuple_eq e (s_queue s)) as [q|] eqn:R; cbn [did r_log]; rewrite last_snoc.
    - destruct (remove_perm _ _ _ R) as (x & PM). pose proof (heapify_perm tuple_lt q) as PH.
      assert (M : map conv (heapify tuple_lt q) = heapify event_lt (map conv q)) by (apply heapify_map, conv_lt).
      unfold blog, slog, squeued, alike. cbn [b_trace b_over b_stack b_sched r_heap r_log r_counter s_trace s_over s_stack s_queue s_issued s_next did bump h_queue].
      split; [rewrite A1, erase_app; reflexivity|]. split; [exact A2|]. split; [exact A3|]. split; [now rewrite M|].
      split; [rewrite scheduled_app; cbn; now rewrite app_nil_r|]. split; [exact A6|]. split; [exact A7|].
      split; [intros y Y; apply A8, (Permutation_in _ (Permutation_sym PM)); right; now apply (Permutation_in _ PH)|].
      split; [|intros W; rewrite M; now apply heapify_spec].
      eapply Permutation_NoDup; [symmetry; apply Permutation_map, PH|]. eapply Permutation_NoDup in A9; [|apply Permutation_map, PM]. now inversion A9.
    - unfold blog, slog, alike. cbn [b_trace b_over b_stack b_sched r_heap r_log r_counter s_trace s_over s_stack s_queue s_issued s_next did].
      split; [rewrite A1, erase_app; reflexivity|]. split; [exact A2|]. split; [exact A3|]. split; [exact A4|].
      split; [rewrite scheduled_app; cbn; now rewrite app_nil_r|]. auto.
  Qed.
  Lemma alike_deed s b d : alike s b -> (match d with Scheduled _ => False | _ => True end) ->
    alike s (mkBstate (did (b_sched b) (r_heap (b_sched b)) d) (b_stack b) (b_trace b) (b_over b)).
  Proof.
    intros (A1 & A2 & A3 & A4 & A5 & A) D. repeat (split; [assumption|]). cbn -[scheduled]. split; [|exact A]. rewrite scheduled_app. destruct d; try contradiction; cbn; now rewrite app_nil_r.
  Qed.
  Lemma alike_loop s b bl : alike s b -> alike (sched_loop K p_lt L clock s bl) (big_loop K p_lt p_gt clock b bl).
  Proof.
    intros A. pose proof A as (A1 & A2 & A3 & A4 & A5 & A6 & A7 & A8 & A9 & A10). destruct AG as (_ & _ & A11).
    unfold sched_loop, big_loop, block_of. cbn [SregModel.step]. unfold heap_bool. rewrite A4. rewrite <- A1. set (now := clock (b_trace b)). cbn zeta.
    destruct (s_queue s) as [|e q] eqn:EQ; cbn [map].
    - cbn [did r_log]. rewrite last_snoc. apply alike_log; [|reflexivity]. now apply alike_deed.
    - assert (G : heap_getitem event_lt (r_heap (b_sched b)) (IInt 0) = Ok (One (conv e))) by (unfold heap_getitem; rewrite A4; reflexivity).
      rewrite G, A11. cbn [slog s_queue]. change (v_time (conv e)) with (q_time e).
      destruct (i_le0 K (t_sub K (q_time e) now)) eqn:D; cbn [negb].
      + cbn [hstep]. rewrite A4, EQ. change (conv e :: map conv q) with (map conv (e :: q)).
        rewrite (heappop_map conv tuple_lt event_lt conv_lt). destruct (heappop_perm tuple_lt e q) as (q' & E1 & E2). rewrite E1. cbn [fst did r_log]. rewrite last_snoc.
        assert (M : strict_weak event_lt -> is_heap event_lt (map conv q')).
        { intros W. specialize (A10 W). apply (heappop_spec event_lt W) in A10. rewrite (heappop_map conv tuple_lt event_lt conv_lt), E1 in A10. apply A10. }
        unfold slog, sstacked, squeued, blog, bstacked, alike. cbn [b_trace b_over b_stack b_sched r_heap r_log r_counter s_trace s_over s_stack s_queue s_issued s_next did bump h_queue].
        split; [rewrite A1, !erase_app, <- app_assoc; reflexivity|]. split; [exact A2|]. split; [now rewrite A3|]. split; [reflexivity|].
        split; [rewrite scheduled_app; cbn; now rewrite app_nil_r|]. split; [exact A6|]. split; [exact A7|].
        split; [intros y Y; apply A8; right; now apply (Permutation_in _ (Permutation_sym E2))|]. split; [|exact M].
        cbn in A9. inversion A9; subst. eapply Permutation_NoDup; [apply Permutation_map, E2|]. assumption.
      + pose proof (fun d => alike_deed s b d A) as AD. destruct bl; cbn [did r_log]; rewrite last_snoc.
        * specialize (AD (Sleeps 0 now (t_sub K (q_time e) now)) Logic.I). cbn [b_stack slog s_stack]. rewrite <- A3.
          assert (S : slog (slog s [Clock now]) [Delay (t_sub K (q_time e) now)] = slog s [Clock now; Delay (t_sub K (q_time e) now)]) by (unfold slog; cbn; now rewrite <- app_assoc).
          rewrite S. apply alike_stack. apply alike_log; [exact AD|reflexivity].
        * specialize (AD (Stops 0 (Some now)) Logic.I).
          assert (S : slog (slog s [Clock now]) [RunReturns (Some (t_sub K (q_time e) now))] = slog s [Clock now; RunReturns (Some (t_sub K (q_time e) now))]) by (unfold slog; cbn; now rewrite <- app_assoc).
          rewrite S. apply alike_log; [exact AD|reflexivity].
  Qed.

  (** the queue property: what is popped one by one is what sorted() gives *)
  Lemma pops_spec n : forall q, length q = n -> strict_weak event_lt -> is_heap event_lt (map conv q) ->
    Permutation (pops K p_lt L n q) q /\ ascending event_lt (map conv (pops K p_lt L n q)).
  Proof.
    induction n as [|n IH]; intros q Hn W Hh; [destruct q; [split; constructor|discriminate]|]. cbn [pops].
    pose proof (heappop_spec event_lt W _ Hh) as R. rewrite (heappop_map conv tuple_lt event_lt conv_lt) in R.
    destruct (heappop tuple_lt q) as [[x q']|] eqn:E; [|destruct q; discriminate].
    assert (E' : Permutation q (x :: q')).
    { destruct q as [|y q]; [discriminate|]. destruct R as (R1 & R2 & R3).
      destruct (heappop_perm tuple_lt y q) as (q2 & E1 & E2). rewrite E1 in E. injection E as <- <-. now constructor. }
    destruct R as (R1 & R2 & R3). assert (Hl : length q' = n) by (apply Permutation_length in E'; cbn in E'; lia).
    destruct (IH q' Hl W R3) as (L1 & L2). split; [rewrite L1; now symmetry|]. cbn [map]. constructor; auto.
    rewrite Forall_forall. intros y Y. apply R1. apply (Permutation_in _ (Permutation_sym R2)). right. eapply Permutation_in; [apply Permutation_map, L1|exact Y].
  Qed.
  (** two ascending lists of the same events are equal when no two events tie *)
  Lemma ascending_same {A} (lt : A -> A -> bool) (l1 : list A) : forall l2, ascending lt l1 -> ascending lt l2 -> Permutation l1 l2 ->
    (forall a b, In a l1 -> In b l1 -> lt a b = false -> lt b a = false -> a = b) -> l1 = l2.
  Proof.
    induction l1 as [|x l1 IH]; intros l2 S1 S2 PM TIE; [apply Permutation_nil in PM; auto|].
    destruct l2 as [|y l2]; [symmetry in PM; apply Permutation_nil in PM; discriminate|].
    inversion S1 as [|? ? S1' F1]; subst. inversion S2 as [|? ? S2' F2]; subst. rewrite Forall_forall in F1, F2.
    assert (x = y) as <-.
    { assert (X : In x (y :: l2)) by (eapply Permutation_in; [exact PM|now left]). assert (Y : In y (x :: l1)) by (eapply Permutation_in; [symmetry; exact PM|now left]).
      destruct X as [X|X]; [auto|]. destruct Y as [Y|Y]; [auto|]. apply TIE; [now left|now right|now apply F2|now apply F1]. }
    f_equal. apply IH; auto; [eapply Permutation_cons_inv; exact PM|]. intros a b A1 B1. apply TIE; now right.
  Qed.
  Lemma alike_queue s b : alike s b -> ordered -> map sview (sched_queue K p_lt L s) = map bview (heap_queue event_lt (r_heap (b_sched b))).
  Proof.
    intros (A1 & A2 & A3 & A4 & A5 & A6 & A7 & A8 & A9 & A10) WO. assert (W : strict_weak event_lt) by (destruct WO; now apply orderly_weak). unfold sched_queue, heap_queue. rewrite A4.
    destruct (pops_spec _ (s_queue s) eq_refl W (A10 W)) as (P1 & P2).
    rewrite <- (ascending_same event_lt (map conv (pops K p_lt L (length (s_queue s)) (s_queue s))) (sort event_lt (map conv (s_queue s)))); auto.
    - rewrite map_map. apply map_ext. intros e. symmetry. apply conv_view.
    - now apply sort_sorted.
    - rewrite sort_perm. now apply Permutation_map.
    - intros a b' HA HB. apply in_map_iff in HA as (x & <- & X), HB as (y & <- & Y). apply (Permutation_in _ P1) in X, Y. intros L1 L2.
      assert (E : q_sequence x = q_sequence y).
      { unfold SregModel.event_lt in L1, L2. destruct WO as ((_ & TG) & (_ & PG)). rewrite !TG, !PG in *. cbn in L1, L2.
        destruct (t_lt K (q_time x) (q_time y)); [discriminate|]. destruct (t_lt K (q_time y) (q_time x)); [discriminate|].
        destruct (p_lt (q_priority x) (q_priority y)); [discriminate|]. destruct (p_lt (q_priority y) (q_priority x)); [discriminate|].
        destruct (Z.ltb_spec (q_sequence x + 1) (q_sequence y + 1)); [discriminate|]. destruct (Z.ltb_spec (q_sequence y + 1) (q_sequence x + 1)); [discriminate|]. lia. }
      f_equal. clear - A9 X Y E. induction (s_queue s) as [|z q IH]; [destruct X|]. cbn in A9. inversion A9 as [|? ? N1 N2]; subst.
      destruct X as [->|X], Y as [->|Y]; auto; exfalso; apply N1; [rewrite E; now apply in_map|rewrite <- E; now apply in_map].
  Qed.

  Definition stack_ok (k : list frame) : Prop := Forall (fun f => f_action f = false -> f_blocking f = true) k.
  Lemma loop_stack s bl : stack_ok (s_stack s) -> stack_ok (s_stack (sched_loop K p_lt L clock s bl)).
  Proof.
    intros S. unfold sched_loop. destruct (s_queue s); auto. destruct (t_after L _ _); [destruct bl; auto; cbn; constructor; auto|].
    cbn [slog s_queue]. destruct (heappop _ _) as [[x q']|]; auto. cbn. constructor; auto. cbn. discriminate.
  Qed.
  Lemma step_stack s : stack_ok (s_stack s) -> stack_ok (s_stack (sched_step K p_lt L program clock s)).
  Proof.
    intros S. unfold sched_step. destruct (s_over s); auto. destruct (program _); auto.
    - destruct (find _ _); auto. unfold sched_cancel. destruct (list_remove _ _ _); auto.
    - unfold sched_cancel. destruct (list_remove _ _ _); auto.
    - now apply loop_stack.
    - destruct (s_stack s) as [|f k] eqn:E; [cbn; rewrite E; constructor|]. apply loop_stack. inversion S; subst. now destruct (f_action f).
    - destruct (s_stack s) as [|f k] eqn:E; [cbn; rewrite E; constructor|]. inversion S; subst. assumption.
  Qed.

  Lemma alike_step s b : alike s b -> stack_ok (s_stack s) ->
    (forall k, s_stack s = mkFrame true false :: k -> program (erase (s_trace s)) <> Raise true) ->
    alike (sched_step K p_lt L program clock s) (big_step K p_lt p_gt program clock b).
  Proof.
    intros A SO SI. pose proof A as (A1 & A2 & A3 & A4 & A5 & A6 & A7 & A8 & A9 & A10).
    unfold sched_step, big_step. rewrite A2. destruct (s_over s); auto. rewrite A1. destruct (program (erase (s_trace s))) as [d p o|t p o|k|e| | |bl| |st] eqn:M.
    - now apply alike_enter.
    - now apply alike_enterabs.
    - assert (F : find (fun e : event T P O => (v_sequence e - 1 =? k)%Z) (scheduled (r_log (b_sched b))) = option_map conv (find (fun e => (q_sequence e =? k)%Z) (s_issued s))).
      { rewrite A5. clear. induction (s_issued s) as [|x l IH]; cbn; auto. replace (q_sequence x + 1 - 1)%Z with (q_sequence x) by lia. destruct (_ =? _)%Z; auto. }
      rewrite F. destruct (find (fun e => (q_sequence e =? k)%Z) (s_issued s)) as [x|] eqn:X; cbn [option_map]; [|now apply alike_log].
      apply alike_cancel; auto. now apply find_some in X as (X & _).
    - now contradiction (OWN _ _ M).
    - unfold block_of. cbn [SregModel.step did r_log]. rewrite last_snoc. apply alike_log; [now apply alike_deed|]. unfold heap_bool. rewrite A4. now destruct (s_queue s).
    - destruct Q as [Q'|Q']; [now contradiction (Q' _ M)|]. unfold block_of. cbn [SregModel.step did r_log]. rewrite last_snoc. apply alike_log; [now apply alike_deed|].
      cbn. do 2 f_equal. symmetry. now apply alike_queue.
    - now apply alike_loop.
    - rewrite A3. destruct (s_stack s) as [|f k] eqn:E.
      + assert (X : alike (slog s [Over None]) (blog b [Over None])) by now apply alike_log. destruct X as (X1 & X2 & X). split; [exact X1|]. split; [reflexivity|exact X].
      + apply alike_loop. destruct (f_action f); [|now apply alike_stack].
        pose proof (alike_log _ _ [DelayZero] [] (alike_stack s b k A) eq_refl) as X. unfold blog in X at 1. cbn in X. now rewrite app_nil_r in X.
    - rewrite A3. destruct (s_stack s) as [|f k] eqn:E.
      + assert (X : alike (slog s [Over (Some st)]) (blog b [Over (Some st)])) by now apply alike_log. destruct X as (X1 & X2 & X). split; [exact X1|]. split; [reflexivity|exact X].
      + assert (X : alike (slog (sstacked s k) [RunRaises st]) (blog (bstacked b k) [RunRaises st])) by (apply alike_log; [now apply alike_stack|reflexivity]).
        destruct f as [bl [|]]; cbn [f_action]; auto. destruct st; auto. inversion SO as [|? ? S1 S2]; subst. cbn in S1. rewrite (S1 eq_refl) in SI. now contradiction (SI k eq_refl).
  Qed.
  Hypothesis QD : quiet_delays K p_lt L program clock.
  Lemma alike_run n : alike (sched_run K p_lt L program clock n) (big_run K p_lt p_gt program clock n) /\ stack_ok (s_stack (sched_run K p_lt L program clock n)).
  Proof.
    induction n as [|n (IH1 & IH2)].
    - split; [|constructor]. do 6 (split; [reflexivity|]). split; [constructor|]. split; [intros x []|]. split; [constructor|].
      intros _ d j Hj. cbn in Hj. lia.
    - split; [apply alike_step; auto; apply QD|now apply step_stack].
  Qed.
End Lockstep.
