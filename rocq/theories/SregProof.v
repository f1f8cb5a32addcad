From Verif Require Import PyBase PyBaseProof HeapModel HeapSpec HeapProof SregModel SregSpec.
Require Import ZifyBool ZifyNat.
Ltac Zify.zify_post_hook ::= Z.div_mod_to_equations.

(** ** heapq only permutes, whatever the comparison says *)
Section Perm.
  Context {A : Type} (ltb : A -> A -> bool).
  Lemma siftdown_loop_perm fuel : forall l x s p, p < length l -> Permutation (siftdown_loop ltb fuel l x s p) (upd l p x).
  Proof.
    induction fuel as [|f IH]; intros l x s p L; cbn [siftdown_loop]; [reflexivity|]. destruct (Nat.ltb_spec s p); [|reflexivity]. destruct (ltb x _); [|reflexivity].
    rewrite IH by (rewrite upd_length; lia). apply upd_move_perm; lia.
  Qed.
  Lemma siftup_loop_perm fuel : forall l x p, p < length l -> let '(h, q) := siftup_loop ltb fuel l x (length l) p in
    length h = length l /\ q < length l /\ Permutation (upd h q x) (upd l p x).
  Proof.
    induction fuel as [|f IH]; intros l x p L; cbn [siftup_loop]; [auto|]. destruct (Nat.ltb_spec (2 * p + 1) (length l)); [|auto].
    set (c := if _ && _ then _ else _). assert (C : p <> c /\ c < length l) by (subst c; destruct (Nat.ltb_spec (2 * p + 1 + 1) (length l)); cbn [andb]; [destruct (negb _)|]; lia).
    specialize (IH (upd l p (nth c l x)) x c). rewrite upd_length in IH. specialize (IH ltac:(lia)). destruct (siftup_loop _ _ _ _ _ _) as [h q]. destruct IH as (E & Q & R).
    split; [lia|]. split; [lia|]. rewrite R. apply upd_move_perm; lia.
  Qed.
  Lemma siftdown_perm l s p : Permutation (siftdown ltb l s p) l.
  Proof.
    unfold siftdown. destruct (nth_error l p) as [x|] eqn:E; [|reflexivity]. assert (L : p < length l) by (apply nth_error_Some; congruence).
    rewrite siftdown_loop_perm by auto. apply nth_error_nth with (d := x) in E. rewrite <- E at 1. now rewrite upd_nth.
  Qed.
  Lemma siftup_perm l p : Permutation (siftup ltb l p) l.
  Proof.
    unfold siftup. destruct (nth_error l p) as [x|] eqn:E; [|reflexivity]. assert (L : p < length l) by (apply nth_error_Some; congruence).
    pose proof (siftup_loop_perm (length l) l x p L) as H. destruct (siftup_loop _ _ _ _ _ _) as [h q]. destruct H as (_ & _ & H).
    rewrite siftdown_perm, H. apply nth_error_nth with (d := x) in E. rewrite <- E at 1. now rewrite upd_nth.
  Qed.
  Lemma heapify_perm l : Permutation (heapify ltb l) l.
  Proof. unfold heapify. generalize (length l / 2) as n. intros n. revert l. induction n as [|n IH]; intros l; cbn [heapify_loop]; [reflexivity|]. now rewrite IH, siftup_perm. Qed.
  Lemma heappush_perm l x : Permutation (heappush ltb l x) (x :: l).
  Proof. unfold heappush. rewrite siftdown_perm. symmetry. apply Permutation_cons_append. Qed.
  (** heappop gives the first element of the list *)
  Lemma heappop_perm x l : exists q, heappop ltb (x :: l) = Some (x, q) /\ Permutation l q.
  Proof.
    unfold heappop. cbn [rev]. destruct (rev l) as [|z r] eqn:E; cbn [app].
    - apply (f_equal (@rev A)) in E. rewrite rev_involutive in E. subst l. exists []. auto.
    - apply (f_equal (@rev A)) in E. rewrite rev_involutive in E. cbn in E. subst l. rewrite rev_app_distr. cbn [rev app].
      eexists. split; [reflexivity|]. rewrite siftup_perm. symmetry. apply Permutation_cons_append.
  Qed.
End Perm.

Section Proof.
  Context {T N I P O : Type} (K : clockwork T N I) (p_lt p_gt : P -> P -> bool).
  Notation event := (event T P O). Notation deed := (deed T N I P O). Notation block := (block T N P O).
  Notation event_lt := (event_lt (O := O) K p_lt p_gt).
  Notation step := (step K p_lt p_gt). Notation run := (run K p_lt p_gt).

  Lemma scheduled_app (a b : list deed) : scheduled (a ++ b) = scheduled a ++ scheduled b.
  Proof. apply flat_map_app. Qed.
  Lemma yielded_app (a b : list deed) : yielded (a ++ b) = yielded a ++ yielded b.
  Proof. apply flat_map_app. Qed.
  Lemma cancelled_app (a b : list deed) : cancelled (a ++ b) = cancelled a ++ cancelled b.
  Proof. apply flat_map_app. Qed.

  (** Event objects are those that schedule has returned, here or in another scheduler *)
  Definition genuine (s : state T N I P O) (b : block) : Prop := match b with Cancel e => v_owner e = 0 -> In e (scheduled (r_log s)) | _ => True end.

  Record inv (s : state T N I P O) : Prop := {
    i_perm : Permutation (scheduled (r_log s)) (h_queue (r_heap s) ++ yielded (r_log s) ++ cancelled (r_log s));
    i_seq : map v_sequence (scheduled (r_log s)) = map (fun n => Z.of_nat n) (seq 1 (length (scheduled (r_log s))));
    i_count : r_counter s = Z.of_nat (length (scheduled (r_log s)));
    i_owner : forall e, In e (scheduled (r_log s)) -> v_owner e = 0 }.
  Lemma nodup_left {A} (a b : list A) : NoDup (a ++ b) -> NoDup a.
  Proof. induction a as [|x a IH]; cbn; intros D; constructor; apply NoDup_cons_iff in D as (D & D'); auto. intros X. apply D. apply in_or_app. auto. Qed.
  Lemma seq_nodup s : inv s -> NoDup (map v_sequence (scheduled (r_log s))).
  Proof. intros V. rewrite i_seq by auto. apply FinFun.Injective_map_NoDup; [intros a b; apply Nat2Z.inj|apply seq_NoDup]. Qed.
  Lemma nodup s : inv s -> NoDup (scheduled (r_log s)).
  Proof. intros V. apply NoDup_map_inv with (f := v_sequence). now apply seq_nodup. Qed.
  Lemma same_eq s a b : inv s -> In a (scheduled (r_log s)) -> In b (scheduled (r_log s)) -> v_sequence a = v_sequence b -> a = b.
  Proof.
    intros V. pose proof (seq_nodup s V) as D. revert D. generalize (scheduled (r_log s)) as l. induction l as [|x l IH]; cbn; [tauto|]. intros D. apply NoDup_cons_iff in D as (D & D').
    assert (F : forall y, In y l -> v_sequence x <> v_sequence y) by (intros y Y E; apply D; rewrite E; now apply in_map).
    intros [->|X] [->|Y] E; auto; exfalso; eapply F; eauto.
  Qed.
  Lemma queue_scheduled s e : inv s -> In e (h_queue (r_heap s)) -> In e (scheduled (r_log s)).
  Proof. intros V H. eapply Permutation_in; [symmetry; apply i_perm; auto|]. apply in_or_app. auto. Qed.
  Lemma pending_queue s e : inv s -> (pending (r_log s) e <-> In e (h_queue (r_heap s))).
  Proof.
    intros V. pose proof (nodup s V) as D. rewrite i_perm in D by auto. unfold pending. split.
    - intros (A & B & C). eapply Permutation_in in A; [|apply i_perm; auto]. rewrite !in_app_iff in A. tauto.
    - intros H. split; [now apply queue_scheduled|].
      assert (X : ~ In e (yielded (r_log s) ++ cancelled (r_log s))).
      { intros X. apply in_split in H as (l1 & l2 & H). rewrite H, <- app_assoc in D. cbn in D. apply NoDup_remove_2 in D. apply D. apply in_or_app. right. apply in_or_app. auto. }
      rewrite in_app_iff in X. tauto.
  Qed.
  Lemma heap_bool_queue (s : state T N I P O) : heap_bool (r_heap s) = true <-> h_queue (r_heap s) <> [].
  Proof. unfold heap_bool. destruct (h_queue (r_heap s)); split; congruence. Qed.

  Lemma step_inv s b : inv s -> genuine s b -> inv (step s b) /\ exists d, r_log (step s b) = r_log s ++ [d] /\ answers K b d.
  Proof.
    intros V G. pose proof V as [V1 V2 V3 V4].
    assert (keep : forall d, scheduled [d] = [] -> yielded [d] = [] -> cancelled [d] = [] -> inv (did s (r_heap s) d)).
    { intros d E1 E2 E3. split; cbn [did r_log r_heap r_counter]; rewrite ?scheduled_app, ?yielded_app, ?cancelled_app, ?E1, ?E2, ?E3, ?app_nil_r; auto. }
    destruct b as [o time rel pr|e|who bl now| |].
    - cbn [SregModel.step]. set (tm := match rel with None => _ | Some _ => _ end). set (e := mkEvent _ _ _ _ _). split.
      + split; cbn [r_log r_heap r_counter hstep fst bump h_queue]; rewrite ?scheduled_app, ?yielded_app, ?cancelled_app; cbn [scheduled yielded cancelled flat_map]; rewrite ?app_nil_r.
        * rewrite heappush_perm. cbn [app]. rewrite <- V1. symmetry. apply Permutation_cons_append.
        * rewrite map_app, app_length. cbn [map length]. rewrite seq_app, map_app, V2. cbn [seq map]. f_equal. f_equal. cbn [v_sequence e]. lia.
        * rewrite app_length. cbn. lia.
        * intros e' H. apply in_app_iff in H as [H|[<-|[]]]; auto.
      + exists (Scheduled e). split; auto. cbn [answers]. destruct rel; eexists; (split; [reflexivity|]); cbn; auto.
    - cbn [SregModel.step hstep]. pose proof (list_remove_spec same e (h_queue (r_heap s))) as R. destruct (list_remove same e _) as [q|] eqn:E.
      + destruct R as (x & S & R). apply andb_true_iff in S as (S1 & S2). apply Nat.eqb_eq in S1. apply Z.eqb_eq in S2.
        assert (X : In x (scheduled (r_log s))) by (apply queue_scheduled; auto; rewrite R; now left).
        assert (x = e). { eapply same_eq; eauto. apply G. rewrite <- S1. auto. } subst x. clear S1 S2.
        split; [|exists (Cancelled e); split; [reflexivity|now left]].
        split; cbn [did r_log r_heap r_counter bump h_queue]; rewrite ?scheduled_app, ?yielded_app, ?cancelled_app; cbn [scheduled yielded cancelled flat_map]; rewrite ?app_nil_r; auto.
        rewrite heapify_perm. rewrite V1, R. rewrite !app_assoc. cbn [app]. apply Permutation_cons_append.
      + split; [|exists (CancelRaises e); split; [reflexivity|now right]]. apply keep; reflexivity.
    - cbn [SregModel.step]. destruct (heap_bool (r_heap s)) eqn:B.
      + apply heap_bool_queue in B. destruct (h_queue (r_heap s)) as [|x q] eqn:Q; [congruence|]. cbn [heap_getitem Z.eqb]. rewrite Q. cbn [py_index rmap].
        change (py_index (x :: q) 0) with (Ok x : result event). cbn [rmap].
        destruct (i_le0 K _) eqn:LE.
        * split; [|eexists; split; [reflexivity|left; eauto]]. cbn [hstep]. rewrite Q. destruct (heappop_perm event_lt x q) as (q' & E & R). rewrite E. cbn [fst].
          split; cbn [did r_log r_heap r_counter bump h_queue]; rewrite ?scheduled_app, ?yielded_app, ?cancelled_app; cbn [scheduled yielded cancelled flat_map]; rewrite ?app_nil_r; auto.
          rewrite V1. cbn [app]. rewrite <- R. rewrite <- app_assoc. cbn [app]. rewrite (app_assoc q), (app_assoc q _ (x :: _)). apply Permutation_middle.
        * destruct bl; (split; [apply keep; reflexivity|eexists; split; [reflexivity|right; right; eauto]]).
      + split; [apply keep; reflexivity|eexists; split; [reflexivity|cbn; auto]].
    - split; [apply keep; reflexivity|eexists; split; [reflexivity|eexists; reflexivity]].
    - split; [apply keep; reflexivity|eexists; split; [reflexivity|eexists; reflexivity]].
  Qed.

  Lemma orderly_weak : orderly (t_lt K) (t_gt K) -> orderly p_lt p_gt -> strict_weak event_lt.
  Proof.
    intros ([T1 [T2 T3]] & TG) ([P1 [P2 P3]] & PG).
    assert (TT : forall a b c, t_lt K a b = true -> t_lt K c b = false -> t_lt K a c = true).
    { intros a b c X Y. destruct (t_lt K a c) eqn:Z; auto. rewrite (T3 _ _ _ Y Z) in X. discriminate. }
    assert (PP : forall a b c, p_lt a b = true -> p_lt c b = false -> p_lt a c = true).
    { intros a b c X Y. destruct (p_lt a c) eqn:Z; auto. rewrite (P3 _ _ _ Y Z) in X. discriminate. }
    unfold SregModel.event_lt. split; [|split].
    - intros a. rewrite TG, PG, T1, P1, Z.ltb_irrefl. reflexivity.
    - intros a b. rewrite !TG, !PG. destruct (t_lt K (v_time a) (v_time b)) eqn:E1; [intros _; rewrite (T2 _ _ E1); reflexivity|].
      destruct (t_lt K (v_time b) (v_time a)) eqn:E2; [discriminate|].
      destruct (p_lt (v_priority a) (v_priority b)) eqn:E3; [intros _; rewrite (P2 _ _ E3); reflexivity|].
      destruct (p_lt (v_priority b) (v_priority a)) eqn:E4; [discriminate|].
      destruct (Z.ltb_spec (v_sequence a) (v_sequence b)); [|discriminate]. intros _. destruct (Z.ltb_spec (v_sequence b) (v_sequence a)); [lia|reflexivity].
    - intros a b c. rewrite !TG, !PG.
      destruct (t_lt K (v_time b) (v_time a)) eqn:E1; [discriminate|].
      destruct (t_lt K (v_time c) (v_time b)) eqn:E2; [discriminate|]. rewrite (T3 _ _ _ E1 E2).
      destruct (t_lt K (v_time a) (v_time c)) eqn:E3; [reflexivity|].
      destruct (t_lt K (v_time a) (v_time b)) eqn:E4; [rewrite (TT _ _ _ E4 E2) in E3; discriminate|].
      destruct (t_lt K (v_time b) (v_time c)) eqn:E5; [pose proof (T3 _ _ _ E3 E1) as X; congruence|].
      destruct (p_lt (v_priority b) (v_priority a)) eqn:F1; [discriminate|]. intros X.
      destruct (p_lt (v_priority c) (v_priority b)) eqn:F2; [discriminate|]. intros Y. rewrite (P3 _ _ _ F1 F2).
      destruct (p_lt (v_priority a) (v_priority c)) eqn:F3; [reflexivity|].
      destruct (p_lt (v_priority a) (v_priority b)) eqn:F4; [rewrite (PP _ _ _ F4 F2) in F3; discriminate|].
      destruct (p_lt (v_priority b) (v_priority c)) eqn:F5; [pose proof (P3 _ _ _ F3 F1) as Z; congruence|].
      destruct (Z.ltb_spec (v_sequence b) (v_sequence a)); [discriminate|]. destruct (Z.ltb_spec (v_sequence c) (v_sequence b)); [discriminate|].
      destruct (Z.ltb_spec (v_sequence c) (v_sequence a)); [lia|reflexivity].
  Qed.

  (** ** with consistent times *)
  Context (due : T -> N -> Prop).
  Hypothesis C : consistent K p_lt p_gt due.
  Lemma event_lt_weak : strict_weak event_lt.
  Proof. destruct C as (C1 & C2 & _). now apply orderly_weak. Qed.
  Lemma in_order l e e' : NoDup (map v_sequence (scheduled l)) -> map v_sequence (scheduled l) = map (fun n => Z.of_nat n) (seq 1 (length (scheduled l))) ->
    In e (scheduled l) -> In e' (scheduled l) -> e <> e' -> event_lt e' e = false -> comes_first K p_lt l e e'.
  Proof.
    intros D Q A B NE. destruct C as ((_ & TG) & (_ & PG) & _). unfold SregModel.event_lt, comes_first. rewrite TG, PG.
    destruct (t_lt K (v_time e') (v_time e)); [discriminate|]. destruct (t_lt K (v_time e) (v_time e')); [auto|].
    destruct (p_lt (v_priority e') (v_priority e)); [discriminate|]. destruct (p_lt (v_priority e) (v_priority e')); [auto|].
    destruct (Z.ltb_spec (v_sequence e') (v_sequence e)) as [X|X]; [discriminate|]. intros _. right. split; auto. right. split; auto. unfold scheduled_before.
    clear TG PG. revert D Q A B NE X. generalize (scheduled l) as m. intros m D Q A B NE X.
    apply in_split in A as (l1 & l2 & ->). apply in_app_iff in B as [B|[B|B]]; [|congruence|].
    - exfalso. apply in_split in B as (l3 & l4 & ->). revert Q. rewrite <- app_assoc. cbn [app]. rewrite !map_app. cbn [map]. rewrite map_app. cbn [map]. intros Q.
      assert (E1 : nth (length l3) (map v_sequence l3 ++ v_sequence e' :: map v_sequence l4 ++ v_sequence e :: map v_sequence l2) 0%Z = v_sequence e') by (rewrite app_nth2; rewrite map_length; [|lia]; now rewrite Nat.sub_diag).
      assert (E2 : nth (length l3 + S (length l4)) (map v_sequence l3 ++ v_sequence e' :: map v_sequence l4 ++ v_sequence e :: map v_sequence l2) 0%Z = v_sequence e).
      { rewrite app_nth2; rewrite map_length; [|lia]. replace (length l3 + S (length l4) - length l3) with (S (length l4)) by lia. cbn [nth]. rewrite app_nth2; rewrite map_length; [|lia]. now rewrite Nat.sub_diag. }
      rewrite Q in E1, E2. change 0%Z with (Z.of_nat 0) in E1, E2. rewrite (map_nth Z.of_nat) in E1, E2. rewrite seq_nth in E1, E2 by (rewrite !app_length; cbn; rewrite app_length; cbn; lia). lia.
    - apply in_split in B as (l3 & l4 & ->). exists l1, l3, l4. reflexivity.
  Qed.

  Lemma step_heap s b : is_heap event_lt (h_queue (r_heap s)) -> is_heap event_lt (h_queue (r_heap (step s b))).
  Proof.
    intros H. destruct b as [o time rel pr|e|who bl now| |]; auto.
    - exact (proj1 (hstep_refines event_lt same event_lt_weak (r_heap s) (Append _) H)).
    - cbn [SregModel.step]. pose proof (hstep_refines event_lt same event_lt_weak (r_heap s) (Remove e) H) as R. destruct (hstep _ _ _ _) as [h [x|x]]; exact (proj1 R).
    - cbn [SregModel.step]. destruct (heap_bool (r_heap s)); auto. destruct (heap_getitem _ _ _) as [[ev|]|]; auto. destruct (i_le0 K _); auto.
      pose proof (hstep_refines event_lt same event_lt_weak (r_heap s) Popleft H) as R. destruct (hstep _ _ _ _) as [h x]. exact (proj1 R).
  Qed.
  Lemma step_good s b : inv s -> is_heap event_lt (h_queue (r_heap s)) -> genuine s b -> exists d, r_log (step s b) = r_log s ++ [d] /\ good K p_lt due (r_log s) d.
  Proof.
    intros V H G. pose proof V as [V1 V2 V3 V4].
    assert (F : forall x q, h_queue (r_heap s) = x :: q -> first K p_lt (r_log s) x).
    { intros x q Q. split; [apply pending_queue; auto; rewrite Q; now left|]. intros e' E' NE.
      apply in_order; auto; [now apply seq_nodup|apply queue_scheduled; auto; rewrite Q; now left|apply E'|].
      apply (is_heap_least event_lt event_lt_weak _ x q H Q). now apply pending_queue. }
    assert (ND : forall x q now, h_queue (r_heap s) = x :: q -> i_le0 K (t_sub K (v_time x) now) = false -> forall e, pending (r_log s) e -> ~ due (v_time e) now).
    { intros x q now Q E e Pe D. destruct C as ((_ & TG) & _ & C1 & C2). assert (due (v_time x) now); [|rewrite <- C1 in H0; congruence]. apply C2 with (v_time e); auto.
      apply pending_queue in Pe; auto. pose proof (is_heap_least event_lt event_lt_weak _ x q H Q e Pe) as L. unfold SregModel.event_lt in L. destruct (t_lt K (v_time e) (v_time x)); congruence. }
    destruct b as [o time rel pr|e|who bl now| |].
    - eexists. split; [reflexivity|]. cbn [good]. intros X. apply (in_map v_sequence) in X. rewrite V2 in X. cbn [v_sequence] in X. apply in_map_iff in X as (n & E & X). apply in_seq in X. lia.
    - cbn [SregModel.step hstep]. pose proof (list_remove_spec same e (h_queue (r_heap s))) as R. destruct (list_remove same e _) as [q|] eqn:E.
      + destruct R as (x & S & R). apply andb_true_iff in S as (S1 & S2). apply Nat.eqb_eq in S1. apply Z.eqb_eq in S2.
        assert (X : In x (scheduled (r_log s))) by (apply queue_scheduled; auto; rewrite R; now left).
        assert (x = e). { eapply same_eq; eauto. apply G. rewrite <- S1. auto. } subst x.
        eexists. split; [reflexivity|]. cbn [good]. apply pending_queue; auto. rewrite R. now left.
      + eexists. split; [reflexivity|]. cbn [good]. intros X. apply pending_queue in X; auto. apply R in X. unfold same in X. rewrite Nat.eqb_refl, Z.eqb_refl in X. discriminate.
    - cbn [SregModel.step]. destruct (heap_bool (r_heap s)) eqn:B.
      + apply heap_bool_queue in B. destruct (h_queue (r_heap s)) as [|x q] eqn:Q; [congruence|]. cbn [heap_getitem Z.eqb]. rewrite Q.
        change (py_index (x :: q) 0) with (Ok x : result event). cbn [rmap].
        destruct (i_le0 K _) eqn:LE.
        * eexists. split; [reflexivity|]. cbn [good]. split; [eapply F; eauto|]. apply C. auto.
        * destruct bl; (eexists; split; [reflexivity|]); cbn [good].
          -- split; [eapply ND; eauto|]. exists x. split; [eapply F; eauto|reflexivity].
          -- split; [exists x; apply pending_queue; auto; rewrite Q; now left|eapply ND; eauto].
      + eexists. split; [reflexivity|]. cbn [good]. intros e E. apply pending_queue in E; auto. unfold heap_bool in B. destruct (h_queue (r_heap s)); [destruct E|discriminate].
    - eexists. split; [reflexivity|]. cbn [good]. rewrite heap_bool_queue. split.
      + intros X. destruct (h_queue (r_heap s)) as [|x q] eqn:Q; [congruence|]. exists x. apply pending_queue; auto. rewrite Q. now left.
      + intros (e & E) X. apply pending_queue in E; auto. rewrite X in E. destruct E.
    - eexists. split; [reflexivity|]. cbn [good]. destruct (heap_queue_spec event_lt event_lt_weak (r_heap s)) as (HP & HS). split; [|split].
      + eapply Permutation_NoDup; [symmetry; exact HP|]. pose proof (nodup s V) as D. rewrite V1 in D. now apply nodup_left in D.
      + intros e. rewrite pending_queue by auto. split; apply Permutation_in; auto. now symmetry.
      + assert (D : NoDup (heap_queue event_lt (r_heap s))).
        { eapply Permutation_NoDup; [symmetry; exact HP|]. pose proof (nodup s V) as D. rewrite V1 in D. now apply nodup_left in D. }
        assert (S : forall e, In e (heap_queue event_lt (r_heap s)) -> In e (scheduled (r_log s))) by (intros e E; apply queue_scheduled; auto; eapply Permutation_in; eauto).
        pose proof (seq_nodup s V) as SN. revert D S HS. generalize (heap_queue event_lt (r_heap s)) as q. induction q as [|x q IH]; intros D S HS; constructor.
        * apply IH; [now apply NoDup_cons_iff in D|intros e E; apply S; now right|now apply StronglySorted_inv in HS].
        * apply StronglySorted_inv in HS as (_ & HS). apply NoDup_cons_iff in D as (D & _). rewrite Forall_forall in *. intros e E. apply in_order; auto; [apply S; now left|apply S; now right|congruence].
  Qed.
End Proof.
