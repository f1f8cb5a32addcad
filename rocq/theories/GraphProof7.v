(** Consequences: the documented loop and static_order; a late node stays blocked. *)
From Verif Require Import PyBase PyBaseProof PyDict PyDictProof GraphModel GraphSpec
  GraphProof1 GraphProof2 GraphProof3 GraphProof4 GraphProof5 GraphProof6.
From Coq Require Import Lia.

Lemma run_step h w ord o w' r : run h w -> good h -> set_order ord -> good_call h o -> step ord w o = (w', r) ->
  run ((o, r) :: h) w' /\ good ((o, r) :: h) /\ answer h w o r.
Proof.
  intros R G O C E. split; [econstructor; eauto|]. split; [split; auto|].
  eapply WI_step; eauto. apply run_WI; auto.
Qed.

(** some node that is not done has only done predecessors *)
Lemma next_exists h w g (P : nat -> Prop) : run h w -> good h -> graph_known h g ->
  (forall n, P n \/ ~ P n) -> acyclic (edge_in h g) ->
  (exists n, node_in h g n /\ ~ P n) ->
  exists n, node_in h g n /\ ~ P n /\ forall d, edge_in h g d n -> P d.
Proof.
  intros R G K Dec A (n0 & N0 & NP0).
  destruct (known_graph_get _ _ _ (run_WI _ _ R G) K) as (Gr & EG & GR).
  assert (Pre : forall L : list nat, exists Rs, forall n, In n Rs <-> In n L /\ ~ P n).
  { induction L as [|x t (Rs & H)]; [exists []; cbn; tauto|].
    destruct (Dec x).
    - exists Rs. intros n. rewrite H. cbn. intuition congruence.
    - exists (x :: Rs). intros n. cbn. rewrite H. intuition congruence. }
  destruct (Pre (dkeys (g_nodes Gr))) as (Rs & HR).
  assert (Dec2 : forall L : list nat, (forall n, In n L -> In n (dkeys (g_nodes Gr))) ->
     (exists n, In n L /\ (forall d, In d Rs -> edge (g_nodes Gr) d n = false)) \/
     (forall n, In n L -> exists d, In d Rs /\ edgeP (g_nodes Gr) d n)).
  { induction L as [|x t IH]; intros HL; [right; cbn; tauto|].
    destruct (existsb (fun d => edge (g_nodes Gr) d x) Rs) eqn:E.
    - apply existsb_exists in E. destruct E as (d & E1 & E2).
      destruct IH as [(n & I1 & I2)|IH]; [cbn in *; auto|left; exists n; cbn; auto|].
      right. intros n [<-|I]; eauto.
    - left. exists x. split; [cbn; auto|]. intros d Hd. destruct (edge (g_nodes Gr) d x) eqn:F; auto.
      assert (existsb (fun d => edge (g_nodes Gr) d x) Rs = true) by (apply existsb_exists; eauto). congruence. }
  destruct (Dec2 Rs) as [(n & I1 & I2)|H].
  - intros n I. apply HR in I. tauto.
  - apply HR in I1. destruct I1 as [I1 I3]. exists n. split; [apply (gr_nodes _ _ _ _ GR); auto|]. split; auto.
    intros d Hd. apply (gr_edges _ _ _ _ GR) in Hd. destruct (Dec d); auto. exfalso.
    specialize (I2 d). unfold edgeP in Hd. rewrite I2 in Hd; [discriminate|]. apply HR. split; auto. eapply edge_key; eauto.
  - exfalso. destruct (finite_pred_cycle (edgeP (g_nodes Gr)) Rs) as (x & _ & Rx).
    + intros ->. assert (I : In n0 []) by (apply HR; split; auto; apply (gr_nodes _ _ _ _ GR); auto). destruct I.
    + exact H.
    + apply (edge_acyclic_iff _ _ (gr_edges _ _ _ _ GR)) in A. exact (A x Rx).
Qed.

Lemma done_dec h w v g : run h w -> good h -> view_on h v g -> forall n, is_done h v n \/ ~ is_done h v n.
Proof.
  intros R G On n. destruct (open_view _ _ _ _ (run_WI _ _ R G) On) as (Gr & V & _ & _ & VR & _).
  rewrite <- (vr_d _ _ _ _ _ VR). destruct (in_dec Nat.eq_dec n (v_done V)); auto.
Qed.
Lemma handed_dec h w v g : run h w -> good h -> view_on h v g -> forall n, handed h v n \/ ~ handed h v n.
Proof.
  intros R G On n. destruct (open_view _ _ _ _ (run_WI _ _ R G) On) as (Gr & V & _ & _ & VR & _).
  destruct (done_dec _ _ _ _ R G On n) as [D|D].
  - left. eapply (vr_dh _ _ _ _ _ VR); auto.
  - destruct (in_dec Nat.eq_dec n (v_yielded V)) as [I|I].
    + left. apply (vr_y _ _ _ _ _ VR) in I. tauto.
    + right. rewrite (vr_y _ _ _ _ _ VR) in I. tauto.
Qed.
Lemma on_known h w v g : run h w -> good h -> view_on h v g -> view_known h v /\ graph_known h g.
Proof.
  intros R G On. pose proof (run_WI _ _ R G) as W. destruct (open_view _ _ _ _ W On) as (Gr & V & E & _ & _ & _).
  split; [eapply wi_view; eauto|]. apply (wi_g _ _ W). eapply nth_error_some_lt; eauto.
Qed.
Lemma nodes_list h w g : run h w -> good h -> graph_known h g ->
  exists l, NoDup l /\ forall n, In n l <-> node_in h g n.
Proof.
  intros R G K. destruct (known_graph_get _ _ _ (run_WI _ _ R G) K) as (Gr & EG & GR).
  exists (dkeys (g_nodes Gr)). split; [apply GR|]. apply GR.
Qed.

Definition before {A} (l : list A) (d n : A) := exists a b c, l = a ++ d :: b ++ n :: c.

Lemma order_loop_spec ord g nodes : set_order ord -> NoDup nodes -> forall k fuel h w v out,
  run h w -> good h -> view_on h v g -> acyclic (edge_in h g) ->
  (forall n, In n nodes <-> node_in h g n) ->
  (forall d n, ~ conflict h v d n) -> (forall n, ~ late h v n) ->
  (forall n, handed h v n <-> In n out) -> (forall n, is_done h v n <-> In n out) ->
  NoDup out -> (forall n, In n out -> node_in h g n) ->
  (forall d n, edge_in h g d n -> In n out -> before out d n) ->
  length nodes - length out <= k -> k < fuel ->
  exists w' out', order_loop ord fuel w v out = Some (w', Ok out') /\ topological (node_in h g) (edge_in h g) out'.
Proof.
  intros HO NDn. induction k as [k IH] using lt_wf_ind. intros fuel h w v out R G On A Nl NC NL Hh Hd ND Hin Hbef Hk Hf.
  destruct fuel as [|f]; [lia|]. cbn [order_loop].
  destruct (on_known _ _ _ _ R G On) as [Kv Kg].
  destruct (step ord w (OBool v)) as [w1 r1] eqn:E1.
  destruct (run_step _ _ ord (OBool v) _ _ R G HO Kv E1) as (R1 & G1 & A1). cbn [answer] in A1.
  destruct A1 as [[Q _]|(g' & On' & A1)]; [now apply Q in On|].
  rewrite (view_on_unique _ _ _ _ _ (run_WI _ _ R G) On' On) in A1. clear g' On'.
  destruct A1 as [[(d & n & Q) _]|(_ & b & -> & Hb)]; [now apply NC in Q|].
  destruct b.
  - destruct (proj1 Hb eq_refl) as (n1 & N1 & D1).
    destruct (step ord w1 (OReady v)) as [w2 r2] eqn:E2.
    assert (Kv1 : view_known ((OBool v, Ok (VBool true)) :: h) v) by (apply known_view_same; auto).
    destruct (run_step _ _ ord (OReady v) _ _ R1 G1 HO Kv1 E2) as (R2 & G2 & A2).
    cbn [answer] in A2.
    destruct A2 as [[Q _]|(g' & On' & A2)]; [now apply Q in On|].
    rewrite (view_on_unique _ _ _ _ _ (run_WI _ _ R1 G1) On' On) in A2. clear g' On'.
    destruct A2 as [[(d & n & Q) _]|[(_ & Q & _)|(_ & _ & l & -> & Ndl & Hl)]].
    { cbn in Q. destruct Q as [Q _]. now apply NC in Q. }
    { exfalso. apply Q. exact A. }
    assert (Hl' : forall n, In n l <-> node_in h g n /\ ~ In n out /\ forall d, edge_in h g d n -> In d out).
    { intros n. rewrite Hl. cbn. rewrite Hh. pose proof (NL n).
      split; intros (Q1 & Q2 & Q3); [destruct Q3 as [_ Q3]|]; (split; [auto|]); (split; [tauto|]).
      - intros d Q. apply Hd. specialize (Q3 d Q). tauto.
      - split; [tauto|]. intros d Q. split; [|tauto]. apply Hd. auto. }
    clear Hl.
    destruct (step ord w2 (ODone v l)) as [w3 r3] eqn:E3.
    assert (G3 : good_call ((OReady v, Ok (VNodes l)) :: (OBool v, Ok (VBool true)) :: h) (ODone v l)).
    { split; [apply known_view_same; auto|]. split; auto. intros n I. split; [cbn; auto|].
      cbn. rewrite Hd. apply Hl' in I. tauto. }
    destruct (run_step _ _ _ _ _ _ R2 G2 HO G3 E3) as (R3 & G4 & A3).
    cbn [answer] in A3.
    destruct A3 as [[Q _]|(_ & A3)]; [now apply Q in On|].
    destruct A3 as [[(d & n & Q) _]|(_ & ->)].
    { cbn in Q. destruct Q as [[Q _] _]. now apply NC in Q. }
    destruct (next_exists h w g (fun n => In n out) R G Kg) as (n2 & N2 & D2 & P2); auto.
    { intros n. destruct (in_dec Nat.eq_dec n out); auto. }
    { exists n1. split; auto. now rewrite <- Hd. }
    assert (I2 : In n2 l) by (apply Hl'; auto).
    assert (NDo : NoDup (out ++ l)).
    { clear - ND Ndl Hl'. induction out as [|x t IHo]; cbn; auto. 
            inversion ND as [|? ? N1 N2]; subst. constructor.
      - rewrite in_app_iff. intros [Q|Q]; auto. apply Hl' in Q. cbn in Q. tauto.
      - clear IHo. revert N2. assert (Dj : forall y, In y t -> ~ In y l).
        { intros y Hy Q. apply Hl' in Q. cbn in Q. tauto. }
        clear - Ndl Dj. induction t as [|y t IHt]; cbn; auto. intros N2. inversion N2; subst. constructor.
        + rewrite in_app_iff. intros [Q|Q]; auto. apply (Dj y); cbn; auto.
        + apply IHt; auto. intros z Hz. apply Dj. cbn. auto. }
    assert (Lo : length out + 1 <= length nodes).
    { assert (In n2 nodes) by (apply Nl; auto).
      assert (NoDup (n2 :: out)) by (constructor; auto).
      assert (incl (n2 :: out) nodes). { intros x [<-|Q]; auto. apply Nl, Hin, Q. }
      pose proof (NoDup_incl_length H0 H1). cbn in *. lia. }
    destruct l as [|x l]; [destruct I2|].
    refine (IH (length nodes - length (out ++ (x :: l))) _ f _ w3 v (out ++ x :: l) R3 G4 On A Nl _ _ _ _ NDo _ _ (le_n _) _).
    + rewrite app_length. cbn [length]. lia.
    + cbn. intros d n. pose proof (NC d n). tauto.
    + cbn. intros n. pose proof (NL n). tauto.
    + intros n. cbn [handed creates]. rewrite in_app_iff, Hh. tauto.
    + intros n. cbn [is_done creates]. rewrite in_app_iff, Hd. tauto.
    + cbn. intros n Q. apply in_app_iff in Q. destruct Q as [Q|Q]; [auto|apply Hl' in Q; tauto].
    + cbn. intros d n He Q. apply in_app_iff in Q. destruct Q as [Q|Q].
      * destruct (Hbef d n He Q) as (a & b & c & ->). exists a, b, (c ++ x :: l).
        rewrite <- !app_assoc. cbn. now rewrite <- app_assoc.
      * assert (Id : In d out) by (apply Hl' in Q; apply Q, He).
        apply in_split in Id. destruct Id as (a & b & ->). apply in_split in Q. destruct Q as (c & c' & ->).
        exists a, (b ++ c), c'. rewrite <- !app_assoc. reflexivity.
    + rewrite app_length. cbn [length]. lia.
  - exists w1, out. split; auto. split; auto. 
    assert (All : forall n, node_in h g n -> In n out).
    { intros n Q. apply Hd. destruct (done_dec _ _ _ _ R G On n); auto.
      assert (false = true) by (apply Hb; eauto). discriminate. }
    split; [split; auto|]. intros d n He. apply Hbef; auto. apply All.
    pose proof (run_WI _ _ R G) as W. destruct (known_graph_get _ _ _ W Kg) as (Gr & EG & GR).
    apply (gr_nodes _ _ _ _ GR). apply (gr_edges _ _ _ _ GR) in He. eapply ni_closed; [apply GR|exact He].
Qed.

Theorem static_order_spec h w g ord : run h w -> good h -> graph_known h g -> set_order ord ->
  acyclic (edge_in h g) ->
  exists rounds, forall fuel, rounds <= fuel ->
    exists w' out, static_order ord fuel w g = Some (w', Ok out) /\ topological (node_in h g) (edge_in h g) out.
Proof.
  intros R G K HO A. destruct (nodes_list _ _ _ R G K) as (nodes & ND & Hn).
  exists (S (length nodes)). intros fuel Hf. unfold static_order.
  destruct (step ord w (OView g)) as [w1 r1] eqn:E1.
  destruct (run_step _ _ ord (OView g) _ _ R G HO K E1) as (R1 & G1 & v & -> & NK).
  apply (order_loop_spec ord g nodes HO ND (length nodes) fuel ((OView g, Ok (VView v)) :: h) w1 v []);
    auto; cbn; try tauto; try lia. constructor.
Qed.

Theorem static_order_cycle h w g ord fuel : run h w -> good h -> graph_known h g -> set_order ord ->
  ~ acyclic (edge_in h g) -> exists w', static_order ord (S fuel) w g = Some (w', Err CycleError).
Proof.
  intros R G K HO A. unfold static_order.
  destruct (step ord w (OView g)) as [w1 r1] eqn:E1.
  destruct (run_step _ _ ord (OView g) _ _ R G HO K E1) as (R1 & G1 & v & -> & NK). cbn [order_loop].
  set (h1 := (OView g, Ok (VView v)) :: h) in *.
  assert (On : view_on h1 v g) by (cbn; auto).
  assert (Kv : view_known h1 v) by (right; exists (OView g); cbn; auto).
  destruct (step ord w1 (OBool v)) as [w2 r2] eqn:E2.
  destruct (run_step _ _ ord (OBool v) _ _ R1 G1 HO Kv E2) as (R2 & G2 & A2). cbn [answer] in A2.
  destruct A2 as [[Q _]|(g' & On' & A2)]; [now apply Q in On|].
  rewrite (view_on_unique _ _ _ _ _ (run_WI _ _ R1 G1) On' On) in A2. clear g' On'.
  destruct A2 as [[(d & n & Q) _]|(_ & b & -> & Hb)]; [cbn in Q; tauto|].
  destruct b.
  - destruct (step ord w2 (OReady v)) as [w3 r3] eqn:E3.
    assert (Kv1 : view_known ((OBool v, Ok (VBool true)) :: h1) v) by (apply known_view_same; auto).
    destruct (run_step _ _ ord (OReady v) _ _ R2 G2 HO Kv1 E3) as (R3 & G3 & A3). cbn [answer] in A3.
    assert (On2 : view_on ((OBool v, Ok (VBool true)) :: h1) v g) by exact On.
    destruct A3 as [[Q _]|(g' & On' & A3)]; [now apply Q in On2|].
    rewrite (view_on_unique _ _ _ _ _ (run_WI _ _ R2 G2) On' On2) in A3. clear g' On'.
    destruct A3 as [[(d & n & Q) _]|[(_ & _ & ->)|(_ & Q & _)]].
    + cbn in Q. tauto.
    + eauto.
    + exfalso. apply A. exact Q.
  - exfalso. apply A. intros n Rn.
    assert (exists d, edge_in h g d n) as (d & Hd) by (destruct (reaches_last _ _ _ Rn) as (b & ? & _); eauto).
    assert (false = true); [|discriminate]. apply Hb. exists n. split; [|cbn; tauto].
    destruct (known_graph_get _ _ _ (run_WI _ _ R G) K) as (Gr & EG & GR). cbn.
    apply (gr_nodes _ _ _ _ GR). apply (gr_edges _ _ _ _ GR) in Hd. eapply ni_closed; [apply GR|exact Hd].
Qed.

(** progress for any use of a view: when nothing handed out is pending, something is ready *)
Theorem progress h w v g ord w' r : run h w -> good h -> view_on h v g -> set_order ord ->
  acyclic (edge_in h g) -> (forall d n, ~ conflict h v d n) -> (forall n, node_in h g n -> ~ late h v n) ->
  (exists n, node_in h g n /\ ~ is_done h v n) ->
  (forall n, handed h v n -> is_done h v n) ->
  step ord w (OReady v) = (w', r) ->
  exists n l, r = Ok (VNodes (n :: l)).
Proof.
  intros R G On HO A NC NL NE All E. destruct (on_known _ _ _ _ R G On) as [Kv Kg].
  destruct (run_step _ _ ord (OReady v) _ _ R G HO Kv E) as (R1 & G1 & A1). cbn [answer] in A1.
  destruct A1 as [[Q _]|(g' & On' & A1)]; [now apply Q in On|].
  rewrite (view_on_unique _ _ _ _ _ (run_WI _ _ R G) On' On) in A1. clear g' On'.
  destruct A1 as [[(d & n & Q) _]|[(_ & Q & _)|(_ & _ & l & -> & _ & Hl)]]; [now apply NC in Q|tauto|].
  destruct (next_exists h w g (is_done h v) R G Kg (done_dec _ _ _ _ R G On) A NE) as (n & N & D & P).
  destruct l as [|x l]; [|eauto].
  exfalso. destruct (proj2 (Hl n)). repeat split; auto.
Qed.

(** a late node stays late until the view is reset or the node removed *)
Lemma late_persists ext : forall h v n, late h v n ->
  (forall r, ~ In (OReset v, r) ext) -> (forall g r, ~ In (ORemove g n, r) ext) ->
  (forall e, In e ext -> ~ creates e v) -> late (ext ++ h) v n.
Proof.
  induction ext as [|[o r] t IH]; intros h v n L H1 H2 H3; auto. cbn [app].
  assert (L' : late (t ++ h) v n).
  { apply IH; auto.
    - intros r' Q. apply (H1 r'). cbn. auto.
    - intros g r' Q. apply (H2 g r'). cbn. auto.
    - intros e Q. apply H3. cbn. auto. }
  pose proof (H3 (o, r) (or_introl eq_refl)) as C.
  destruct o; cbn [late]; try (split; [exact L'|exact C]).
  - right. exact L'.
  - destruct r; split; try exact L'; try exact C.
    intros [_ ->]. eapply H2. cbn. eauto.
  - destruct r; [|split; auto]. split; [|exact L']. intros ->. eapply H1. cbn. eauto.
  - destruct r as [[]|]; try (split; auto; fail). right. split; [|auto]. intros ->. apply C. cbn. auto.
Qed.
