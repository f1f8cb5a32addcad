(** Every call preserves the invariant. *)
From Verif Require Import PyBase PyBaseProof PyDict PyDictProof GraphModel GraphSpec
  GraphProof1 GraphProof2 GraphProof3 GraphProof4.
From Coq Require Import Lia.

Lemma WI_init : WI [] (mkW [] []).
Proof.
  constructor; cbn; try easy.
  - intros g. split; [intros (o & d & [])|lia].
  - intros g G H. destruct g; discriminate.
  - intros v [(o & g & [])|(o & [])].
  - intros v [(o & g & [])|(o & [])].
Qed.

(** the view an open handle denotes *)
Lemma open_view h w v g : WI h w -> view_on h v g -> exists G V,
  nth_error (w_graphs w) g = Some G /\ nth_error (w_views w) v = Some V /\
  ViewR h (g_nodes G) v g V /\ GraphR h w g G.
Proof.
  intros H On. destruct (wi_view _ _ H v g On) as (_ & G & V & H1 & H2 & H3).
  exists G, V. do 3 (split; [auto|]). apply (wi_graph _ _ H g G H1).
Qed.
Lemma view_on_unique h w v g g' : WI h w -> view_on h v g -> view_on h v g' -> g = g'.
Proof.
  intros H A B. destruct (open_view _ _ _ _ H A) as (G & V & _ & E & [] & _).
  destruct (open_view _ _ _ _ H B) as (G' & V' & _ & E' & [] & _). congruence.
Qed.

Lemma with_open_on h w v g k : WI h w -> view_on h v g ->
  exists G V, nth_error (w_graphs w) g = Some G /\ nth_error (w_views w) v = Some V /\
    ViewR h (g_nodes G) v g V /\ GraphR h w g G /\ with_open w v k = k V g G.
Proof.
  intros H On. destruct (open_view _ _ _ _ H On) as (G & V & E1 & E2 & R & GR).
  exists G, V. do 4 (split; auto). unfold with_open. rewrite E2, (vr_graph _ _ _ _ _ R).
  unfold with_graph. now rewrite E1.
Qed.
Lemma with_open_cases h w v k : WI h w -> view_known h v ->
  (exists g, view_on h v g) \/ with_open w v k = (w, Err ValueError).
Proof.
  intros H Kn. destruct (wi_closed _ _ H v Kn) as [|(V & E & F)]; auto. right.
  unfold with_open. now rewrite E, F.
Qed.
Lemma known_graph_get h w g : WI h w -> graph_known h g -> exists G,
  nth_error (w_graphs w) g = Some G /\ GraphR h w g G.
Proof.
  intros H Kn. apply (wi_g _ _ H) in Kn. destruct (nth_error (w_graphs w) g) as [G|] eqn:E.
  - exists G. split; auto. apply (wi_graph _ _ H); auto.
  - apply nth_error_None in E. lia.
Qed.

(** set_dirty after a check *)
Lemma check_spec N ord dirty : NI N -> set_order ord -> (dirty = false -> acyclic (edgeP N)) ->
  (acyclic (edgeP N) /\ g_check ord N dirty = (false, Ok tt)) \/
  (~ acyclic (edgeP N) /\ dirty = true /\ g_check ord N dirty = (true, Err CycleError)).
Proof.
  intros HN HO HD. unfold g_check. destruct dirty.
  - destruct (cycle_spec N ord HN HO) as [[A E]|(c & C & E)]; rewrite E.
    + left. auto.
    + right. split; [eapply is_cycle_not_acyclic; eauto|]. split; auto.
      destruct c; [destruct C|auto].
  - left. auto.
Qed.
Lemma dirty_eq_put w g G d : nth_error (w_graphs w) g = Some G ->
  (d = false -> g_dirty G = false \/ acyclic (edgeP (g_nodes G))) ->
  dirty_eq w (put_graph w g (set_dirty G d)).
Proof.
  intros E H. split; [auto|]. split; [apply upd_length|]. intros g' G'. cbn. rewrite nth_error_upd.
  pose proof (nth_error_some_lt _ _ _ E).
  destruct (g =? g') eqn:F.
  - apply Nat.eqb_eq in F. subst g'. apply Nat.ltb_lt in H0. rewrite H0. intros [= <-].
    exists G. cbn. auto.
  - intros Q. exists G'. split; auto. split; [now destruct G'|auto].
Qed.

(** ready *)
Lemma ready_ViewR h N u g V : ViewR h N u g V ->
  ViewR ((OReady u, Ok (VNodes (v_ready V))) :: h) N u g (fst (v_take_ready V)).
Proof.
  intros [R1 R2 R3 R4 R5]. constructor; cbn [handed is_done late conflict creates v_graph v_take_ready fst set_ready set_yielded v_yielded v_done].
  - auto.
  - eapply VI_ext; [| | |apply VI_take_ready, R2]; cbn; intuition.
  - intros n. rewrite in_sunion, R3. split; [|intuition].
    assert (In n (v_ready V) -> ~ is_done h u n).
    { intros Q. apply (vi_ready _ _ _ _ _ (proj1 R2)) in Q. rewrite R4 in Q. tauto. }
    intuition.
  - intros n. rewrite R4. cbn. tauto.
  - intros n. cbn. intros [Q _]. auto.
Qed.
(** done *)
Lemma done_ViewR h N u g V ns V' : ViewR h N u g V -> NI N -> NoDup ns ->
  (forall n, In n ns -> handed h u n /\ ~ is_done h u n) ->
  v_do_done N V ns = (V', Ok tt) ->
  ViewR ((ODone u ns, Ok VUnit) :: h) N u g V'.
Proof.
  intros [vr_graph0 vr_inv0 vr_y0 vr_d0 vr_dh0] HN ND HY E.
  destruct (VI_done _ _ _ _ V N ns vr_inv0 eq_refl (fun _ _ => eq_refl) HN ND) as (v' & E' & G & Y & D & I).
  { intros n Q. apply vr_y0. auto. }
  rewrite E in E'. injection E' as <-.
  constructor; cbn [handed is_done late conflict creates].
  - congruence.
  - eapply VI_ext; [| | |exact I]; cbn; intuition.
  - intros n. rewrite Y, vr_y0. intuition.
  - intros n. rewrite D, vr_d0. intuition.
  - intros n. cbn. intros [[_ Q]|Q]; split; auto. apply HY. auto.
Qed.
Lemma done_ok h N u g V ns : ViewR h N u g V -> NI N -> NoDup ns ->
  (forall n, In n ns -> handed h u n /\ ~ is_done h u n) ->
  exists V', v_do_done N V ns = (V', Ok tt).
Proof.
  intros [vr_graph0 vr_inv0 vr_y0 vr_d0 vr_dh0] HN ND HY.
  destruct (VI_done _ _ _ _ V N ns vr_inv0 eq_refl (fun _ _ => eq_refl) HN ND) as (v' & E' & _).
  { intros n Q. apply vr_y0. auto. }
  eauto.
Qed.
(** reset *)
Lemma reset_ViewR h N u g V S : ViewR h N u g V -> StockR N g S ->
  ViewR ((OReset u, Ok VUnit) :: h) N u g (v_do_reset V S).
Proof.
  intros [vr_graph0 vr_inv0 vr_y0 vr_d0 vr_dh0] [sr_graph0 sr_inv0 sr_y0 sr_d0]. constructor; cbn [handed is_done late conflict v_do_reset v_graph v_yielded v_done].
  - auto.
  - destruct sr_inv0 as [A B]. split.
    + apply (VIg_ext _ _ (edge N) _ (late ((OReset u, Ok VUnit) :: h) u) _ (fun d => smem d [])) in A.
      * destruct A. rewrite sr_y0, sr_d0 in *. constructor; cbn; auto.
      * intros. now rewrite sr_d0.
      * cbn. unfold none1. tauto.
    + constructor; cbn [v_conf v_rconf conflict].
      * split; [constructor|intros ? ? [=]].
      * split; [constructor|intros ? ? [=]].
      * intros d n. split; [intros [? [[=] _]]|tauto].
      * intros d n. split; [intros [? [[=] _]]|tauto].
      * tauto.
  - cbn. tauto.
  - cbn. tauto.
  - tauto.
Qed.

(** creation of a view *)
Lemma WI_new_view h w e g G V0 : WI h w -> nth_error (w_graphs w) g = Some G ->
  (e = (OView g, Ok (VView (length (w_views w)))) /\ StockR (g_nodes G) g V0 \/
   exists u, e = (OViewCopy u, Ok (VView (length (w_views w)))) /\ ViewR h (g_nodes G) u g V0 /\ view_on h u g) ->
  WI (e :: h) (mkW (upd (w_graphs w) g (set_views G (g_views G ++ [length (w_views w)]))) (w_views w ++ [V0])).
Proof.
  intros HW EG He. set (new := length (w_views w)) in *.
  assert (Fresh : ~ view_known h new) by (intros Q; apply (wi_vk _ _ HW) in Q; unfold new in Q; lia).
  assert (Fresh' : forall g', ~ view_on h new g') by (intros g' Q; apply (wi_view _ _ HW) in Q; tauto).
  assert (On' : forall v g', view_on (e :: h) v g' <-> (v = new /\ g' = g) \/ view_on h v g').
  { intros v g'. destruct He as [[-> _]|(u & -> & R & On)]; cbn.
    - destruct (Nat.eq_dec v new) as [->|]; [|intuition]. specialize (Fresh' g'). intuition.
    - assert (Q : v = new /\ view_on h u g' <-> v = new /\ g' = g).
      { split; intros [? ?]; split; auto; [|subst; auto]. eapply view_on_unique; eauto. }
      rewrite Q. destruct (Nat.eq_dec v new) as [->|]; [|intuition]. specialize (Fresh' g'). intuition. }
  assert (Nd : forall g' n, node_in (e :: h) g' n <-> node_in h g' n) by (destruct He as [[-> _]|(u & -> & _)]; cbn; tauto).
  assert (Ed : forall g' d n, edge_in (e :: h) g' d n <-> edge_in h g' d n) by (destruct He as [[-> _]|(u & -> & _)]; cbn; tauto).
  assert (Same : forall v, v <> new -> (forall n, handed (e :: h) v n <-> handed h v n) /\
     (forall n, is_done (e :: h) v n <-> is_done h v n) /\ (forall n, late (e :: h) v n <-> late h v n) /\
     (forall d n, conflict (e :: h) v d n <-> conflict h v d n)).
  { intros v Nv. destruct He as [[-> _]|(u & -> & _)]; cbn; intuition. }
  assert (VR0 : ViewR (e :: h) (g_nodes G) new g V0).
  { destruct He as [[-> R]|(u & -> & R & On)].
    - destruct R as [sr_graph0 sr_inv0 sr_y0 sr_d0]. constructor; auto.
      + eapply VI_ext; [| | |exact sr_inv0]; cbn; unfold none1, none2; intuition.
      + intros n. rewrite sr_y0. cbn. intuition.
      + intros n. rewrite sr_d0. cbn. intuition.
      + cbn. intuition.
    - destruct R as [vr_graph0 vr_inv0 vr_y0 vr_d0 vr_dh0]. constructor; auto.
      + eapply VI_ext; [| | |exact vr_inv0]; cbn; intuition.
      + intros n. rewrite vr_y0. cbn. specialize (vr_dh0 n). intuition.
      + intros n. rewrite vr_d0. cbn. intuition.
      + cbn. intros n. specialize (vr_dh0 n). intuition. }
  assert (Kg : forall g', graph_known (e :: h) g' <-> graph_known h g').
  { intros g'. unfold graph_known. destruct He as [[-> _]|(u & -> & _)]; cbn; split;
      intros (o & d & Q); try destruct Q as [[=]|Q]; eauto. }
  assert (Kv : forall v, view_known (e :: h) v <-> v = new \/ view_known h v).
  { intros v. unfold view_known. destruct He as [[-> _]|(u & -> & _)]; cbn; (split;
      [intros [(o & d & [Q|Q])|(o & [Q|Q])]; try discriminate; first [left; congruence|eauto]
      |intros [->|[(o & d & Q)|(o & Q)]]; eauto]). }
  assert (NV : forall v, v <> new -> nth_error (w_views w ++ [V0]) v = nth_error (w_views w) v).
  { intros v Nv. destruct (Nat.lt_ge_cases v (length (w_views w))).
    - apply nth_error_app1; auto.
    - rewrite nth_error_app2 by auto. destruct (v - length (w_views w)) as [|k] eqn:E; [unfold new in Nv; lia|].
      cbn. replace (nth_error (w_views w) v) with (@None view) by (symmetry; apply nth_error_None; auto). now destruct k. }
  assert (NV0 : nth_error (w_views w ++ [V0]) new = Some V0).
  { rewrite nth_error_app2 by auto. now rewrite Nat.sub_diag. }
  assert (NG : forall g' G', nth_error (upd (w_graphs w) g (set_views G (g_views G ++ [new]))) g' = Some G' ->
     exists G0, nth_error (w_graphs w) g' = Some G0 /\ g_nodes G' = g_nodes G0 /\ g_dirty G' = g_dirty G0 /\
       g_stock G' = g_stock G0 /\ g_views G' = g_views G0 ++ (if g' =? g then [new] else [])).
  { intros g' G'. rewrite nth_error_upd. rewrite (Nat.eqb_sym g' g). destruct (g =? g') eqn:F.
    - apply Nat.eqb_eq in F. subst g'. pose proof (nth_error_some_lt _ _ _ EG) as L. apply Nat.ltb_lt in L.
      rewrite L. intros [= <-]. exists G. cbn. auto.
    - intros Q. exists G'. rewrite app_nil_r. auto. }
  assert (NGb : forall g' G0, nth_error (w_graphs w) g' = Some G0 -> exists G',
     nth_error (upd (w_graphs w) g (set_views G (g_views G ++ [new]))) g' = Some G' /\ g_nodes G' = g_nodes G0).
  { intros g' G0 Q. destruct (nth_error (upd (w_graphs w) g (set_views G (g_views G ++ [new]))) g') as [G'|] eqn:E.
    - destruct (NG _ _ E) as (G1 & E1 & E2 & _). exists G'. split; auto. congruence.
    - apply nth_error_None in E. rewrite upd_length in E. apply nth_error_some_lt in Q. lia. }
  constructor; cbn [w_graphs w_views].
  - intros g'. rewrite Kg, upd_length. apply HW.
  - intros g' G' E. destruct (NG _ _ E) as (G0 & E0 & E1 & E2 & E3 & E4).
    destruct (wi_graph _ _ HW g' G0 E0) as [A1 A2 A3 A4 A5 A6 A7 (S & A8 & A9)].
    assert (NS : g_stock G0 <> new).
    { intros Q. apply nth_error_some_lt in A8. rewrite Q in A8. unfold new in A8. lia. }
    constructor; rewrite ?E1, ?E2, ?E3, ?E4; auto.
    + intros. rewrite Nd. auto.
    + intros. rewrite Ed. auto.
    + destruct (g' =? g); [|rewrite app_nil_r; auto].
      apply nodup_app_one; auto. rewrite A6. intros [Q|Q]; [congruence|]. eapply Fresh'; eauto.
    + intros v. rewrite in_app_iff, A6, On'. destruct (g' =? g) eqn:F; cbn.
      * apply Nat.eqb_eq in F. intuition (subst; auto).
      * apply Nat.eqb_neq in F. intuition (subst; try congruence).
    + rewrite Kv. intros [Q|Q]; auto.
    + exists S. cbn [w_views]. rewrite NV by auto. auto.
  - intros v. rewrite Kv, app_length. cbn. intros [->|Q]; [unfold new; lia|].
    apply (wi_vk _ _ HW) in Q. lia.
  - intros v g'. rewrite On', Kv. intros [[-> ->]|Q].
    + split; auto. destruct (NGb _ _ EG) as (G' & E' & N'). exists G', V0. rewrite N'. auto.
    + destruct (wi_view _ _ HW v g' Q) as (K & G0 & V & E0 & E1 & R). split; auto.
      assert (Nv : v <> new) by (intros ->; tauto).
      destruct (NGb _ _ E0) as (G' & E' & N'). exists G', V. rewrite N', NV by auto. split; auto. split; auto.
      destruct (Same v Nv) as (S1 & S2 & S3 & S4). eapply ViewR_ext; eauto.
  - intros v. rewrite Kv. intros [->|Q]; [left; exists g; apply On'; auto|].
    destruct (wi_closed _ _ HW v Q) as [[g' O]|(V & E & F)].
    + left. exists g'. apply On'. auto.
    + right. exists V. rewrite NV; auto. intros ->. tauto.
  - intros g' n. rewrite Nd, upd_length. apply HW.
  - intros g' d n. rewrite Ed, upd_length. apply HW.
Qed.

(** a new graph *)
Lemma WI_new_graph h w : WI h w ->
  WI ((ONewGraph, Ok (VGraph (length (w_graphs w)) (length (w_views w)))) :: h) (new_graph w).
Proof.
  intros HW. set (g0 := length (w_graphs w)). set (d := length (w_views w)).
  set (e := (ONewGraph, Ok (VGraph g0 d))).
  assert (Fresh : forall v, view_known h v -> v < d) by apply HW.
  assert (Fresh' : forall v g, view_on h v g -> v < d /\ g < g0).
  { intros v g Q. apply (wi_view _ _ HW) in Q. destruct Q as (A & G & V & B & _). split; auto.
    apply nth_error_some_lt in B. auto. }
  assert (On' : forall v g, view_on (e :: h) v g <-> (v = d /\ g = g0) \/ view_on h v g).
  { intros v g. cbn. specialize (Fresh' v g). destruct (Nat.eq_dec v d); [|intuition]. intuition lia. }
  assert (Kg : forall g, graph_known (e :: h) g <-> g = g0 \/ graph_known h g).
  { intros g. unfold graph_known. cbn. split.
    - intros (o & v & [Q|Q]); [injection Q; auto|eauto].
    - intros [->|(o & v & Q)]; [exists ONewGraph, d; auto|eauto]. }
  assert (Kv : forall v, view_known (e :: h) v <-> v = d \/ view_known h v).
  { intros v. unfold view_known. cbn. split.
    - intros [(o & g & [Q|Q])|(o & [Q|Q])]; try discriminate; eauto. injection Q; auto.
    - intros [->|[(o & g & Q)|(o & Q)]]; [left; exists ONewGraph, g0; auto|eauto|eauto]. }
  assert (NV : forall v, v < d -> nth_error (w_views (new_graph w)) v = nth_error (w_views w) v).
  { intros v L. apply nth_error_app1. auto. }
  assert (NVd : nth_error (w_views (new_graph w)) d = Some (v_fresh g0)).
  { unfold new_graph; cbn [w_views w_graphs]. unfold d. rewrite nth_error_app2 by lia. now rewrite Nat.sub_diag. }
  assert (NVs : nth_error (w_views (new_graph w)) (S d) = Some (v_fresh g0)).
  { unfold new_graph; cbn [w_views w_graphs]. unfold d. rewrite nth_error_app2 by lia. replace (S (length (w_views w)) - length (w_views w)) with 1 by lia. auto. }
  assert (NG : forall g G, nth_error (w_graphs (new_graph w)) g = Some G ->
     (g = g0 /\ G = mkG [] false [d; S d] d (S d)) \/ (g < g0 /\ nth_error (w_graphs w) g = Some G)).
  { intros g G Q. cbn in Q. destruct (Nat.lt_ge_cases g g0) as [L|L].
    - rewrite nth_error_app1 in Q; auto.
    - rewrite nth_error_app2 in Q by auto. fold g0 in Q. destruct (g - g0) as [|k] eqn:Ek; cbn in Q.
      + injection Q as <-. left. split; auto. lia.
      + destruct k; discriminate. }
  assert (NGb : forall g G, nth_error (w_graphs w) g = Some G -> nth_error (w_graphs (new_graph w)) g = Some G).
  { intros g G Q. cbn. rewrite nth_error_app1; auto. eapply nth_error_some_lt; eauto. }
  assert (NG0 : nth_error (w_graphs (new_graph w)) g0 = Some (mkG [] false [d; S d] d (S d))).
  { unfold new_graph; cbn [w_views w_graphs]. unfold g0. rewrite nth_error_app2 by lia. now rewrite Nat.sub_diag. }
  constructor.
  - intros g. rewrite Kg. cbn. rewrite app_length. cbn. rewrite (wi_g _ _ HW). fold g0. lia.
  - intros g G Q. destruct (NG _ _ Q) as [[-> ->]|[L Q0]].
    + constructor; cbn [g_nodes g_dirty g_views g_stock].
      * apply NI_nil.
      * intros n. cbn. split; [tauto|]. intros Q1. apply (wi_node _ _ HW) in Q1. unfold g0 in Q1. lia.
      * intros a b. cbn. split; [discriminate|]. intros Q1. apply (wi_edge _ _ HW) in Q1. unfold g0 in Q1. lia.
      * intros _ n R. inversion R; discriminate.
      * constructor; [cbn; intuition lia|constructor; [easy|constructor]].
      * intros v. rewrite On'. cbn. specialize (Fresh' v g0). intuition lia.
      * rewrite Kv. intros [Q1|Q1]; [lia|]. apply Fresh in Q1. lia.
      * exists (v_fresh g0). split; auto. constructor; auto. apply VI_fresh.
    + destruct (wi_graph _ _ HW g G Q0) as [A1 A2 A3 A4 A5 A6 A7 (S & A8 & A9)].
      pose proof (nth_error_some_lt _ _ _ A8) as Ls. fold d in Ls.
      constructor; auto.
      * intros v. rewrite A6, On'. intuition lia.
      * rewrite Kv. intuition lia.
      * exists S. rewrite NV; auto.
  - intros v. rewrite Kv. cbn. rewrite app_length. cbn. fold d. intros [->|Q]; [lia|]. apply Fresh in Q. lia.
  - intros v g. rewrite On', Kv. intros [[-> ->]|Q].
    + split; auto. eexists _, _. split; [exact NG0|]. split; [exact NVd|]. constructor; cbn; try tauto.
      eapply VI_ext; [| | |apply VI_fresh]; cbn; auto; tauto.
    + pose proof (Fresh' _ _ Q) as [L1 L2]. destruct (wi_view _ _ HW v g Q) as (K & G & V & B1 & B2 & B3).
      split; auto. exists G, V. rewrite NV by auto. split; auto. split; auto.
      eapply ViewR_ext; [| | | |exact B3]; cbn; intuition lia.
  - intros v. rewrite Kv. intros [->|Q]; [left; exists g0; apply On'; auto|].
    destruct (wi_closed _ _ HW v Q) as [[g' O]|(V & E & F)].
    + left. exists g'. apply On'. auto.
    + right. exists V. rewrite NV; auto.
  - intros g n. cbn. rewrite app_length. intros Q. apply (wi_node _ _ HW) in Q. lia.
  - intros g a b. cbn. rewrite app_length. intros Q. apply (wi_edge _ _ HW) in Q. lia.
Qed.

(** closing a view *)
Lemma WI_close h w u g G : WI h w -> view_on h u g -> nth_error (w_graphs w) g = Some G ->
  WI ((OClose u, Ok VUnit) :: h)
     (put_view (put_graph w g (set_views G (lremove u (g_views G)))) u v_closed).
Proof.
  intros HW On EG. set (e := (OClose u, Ok VUnit)).
  assert (On' : forall v g', view_on (e :: h) v g' <-> v <> u /\ view_on h v g') by (intros; cbn; tauto).
  assert (Kg : forall g', graph_known (e :: h) g' <-> graph_known h g') by (intros; now apply known_graph_same).
  assert (Kv : forall v, view_known (e :: h) v <-> view_known h v) by (intros; now apply known_view_same).
  destruct (open_view _ _ _ _ HW On) as (G1 & V1 & EG1 & EV1 & R1 & GR1).
  rewrite EG in EG1. injection EG1 as <-.
  pose proof (nth_error_some_lt _ _ _ EV1) as Lu.
  set (w' := put_view (put_graph w g (set_views G (lremove u (g_views G)))) u v_closed).
  assert (NE : forall v, nth_error (w_views w') v =
      if v =? u then Some v_closed else nth_error (w_views w) v).
  { intros v. unfold w', put_view, put_graph. cbn. rewrite nth_error_upd. rewrite (Nat.eqb_sym v u).
    destruct (u =? v) eqn:E; auto. apply Nat.eqb_eq in E. subst.
    destruct (v <? length (w_views w)) eqn:F; auto. apply Nat.ltb_ge in F. lia. }
  assert (NG : forall g' G', nth_error (w_graphs w') g' = Some G' ->
     exists G0, nth_error (w_graphs w) g' = Some G0 /\ g_nodes G' = g_nodes G0 /\ g_dirty G' = g_dirty G0 /\
       g_stock G' = g_stock G0 /\ g_views G' = (if g' =? g then lremove u (g_views G0) else g_views G0)).
  { intros g' G'. unfold w', put_view, put_graph. cbn. rewrite nth_error_upd. rewrite (Nat.eqb_sym g' g). destruct (g =? g') eqn:F.
    - apply Nat.eqb_eq in F. subst g'. pose proof (nth_error_some_lt _ _ _ EG) as L. apply Nat.ltb_lt in L.
      rewrite L. intros [= <-]. exists G. cbn. auto.
    - intros Q. exists G'. auto. }
  assert (Lg : length (w_graphs w') = length (w_graphs w)) by apply upd_length.
  assert (NGb : forall g' G0, nth_error (w_graphs w) g' = Some G0 -> exists G',
     nth_error (w_graphs w') g' = Some G' /\ g_nodes G' = g_nodes G0).
  { intros g' G0 Q. destruct (nth_error (w_graphs w') g') as [G'|] eqn:E.
    - destruct (NG _ _ E) as (G2 & E1 & E2 & _). exists G'. split; auto. congruence.
    - apply nth_error_None in E. rewrite Lg in E. apply nth_error_some_lt in Q. lia. }
  assert (NVu : forall v, v <> u -> nth_error (w_views w') v = nth_error (w_views w) v).
  { intros v Q. rewrite NE. apply Nat.eqb_neq in Q. now rewrite Q. }
  constructor.
  - intros g'. rewrite Kg, Lg. apply HW.
  - intros g' G' E. destruct (NG _ _ E) as (G0 & E0 & E1 & E2 & E3 & E4).
    destruct (wi_graph _ _ HW g' G0 E0) as [A1 A2 A3 A4 A5 A6 A7 (S & A8 & A9)].
    assert (NS : g_stock G0 <> u).
    { intros Q. rewrite Q in A7. apply A7. destruct (wi_view _ _ HW u g On). auto. }
    constructor; rewrite ?E1, ?E2, ?E3, ?E4; auto.
    + destruct (g' =? g); auto using nodup_lremove.
    + intros v. rewrite On'. destruct (g' =? g) eqn:F.
      * rewrite in_lremove, A6 by auto. intuition congruence.
      * rewrite A6. apply Nat.eqb_neq in F. split; [|tauto]. intros [Q|Q]; auto. right. split; auto.
        intros ->. apply F. eapply view_on_unique; eauto.
    + rewrite Kv; auto.
    + exists S. rewrite NVu; auto.
  - intros v. rewrite Kv. unfold w'. cbn. rewrite upd_length. apply HW.
  - intros v g'. rewrite On', Kv. intros [Nv Q].
    destruct (wi_view _ _ HW v g' Q) as (K & G0 & V & E0 & E1 & R). split; auto.
    destruct (NGb _ _ E0) as (G' & E' & N'). exists G', V. rewrite N', NVu by auto. split; auto. split; auto.
    eapply ViewR_ext; [| | | |exact R]; cbn; intuition.
  - intros v. rewrite Kv. intros Q. destruct (Nat.eq_dec v u) as [->|Nv].
    + right. exists v_closed. rewrite NE, Nat.eqb_refl. auto.
    + destruct (wi_closed _ _ HW v Q) as [[g' O]|(V & E & F)].
      * left. exists g'. apply On'. auto.
      * right. exists V. rewrite NVu; auto.
  - intros g' n. rewrite Lg; cbn. apply HW.
  - intros g' a b. rewrite Lg; cbn. apply HW.
Qed.
