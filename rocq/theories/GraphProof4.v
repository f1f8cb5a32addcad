(** The invariant tying a history to the world it produces. *)
From Verif Require Import PyBase PyBaseProof PyDict PyDictProof GraphModel GraphSpec
  GraphProof1 GraphProof2 GraphProof3.
From Coq Require Import Lia.

Record ViewR (h : history) (N : nodes_t) (v g : nat) (V : view) : Prop := mkVR {
  vr_graph : v_graph V = Some g;
  vr_inv : VI (dkeys N) (edge N) (late h v) (conflict h v) V;
  vr_y : forall n, In n (v_yielded V) <-> handed h v n /\ ~ is_done h v n;
  vr_d : forall n, In n (v_done V) <-> is_done h v n;
  vr_dh : forall n, is_done h v n -> handed h v n
}.
Definition none1 (_ : nat) := False.
Definition none2 (_ _ : nat) := False.
Record StockR (N : nodes_t) (g : nat) (V : view) : Prop := mkSR {
  sr_graph : v_graph V = Some g;
  sr_inv : VI (dkeys N) (edge N) none1 none2 V;
  sr_y : v_yielded V = [];
  sr_d : v_done V = []
}.
Record GraphR (h : history) (w : world) (g : nat) (G : graph) : Prop := mkGR {
  gr_ni : NI (g_nodes G);
  gr_nodes : forall n, In n (dkeys (g_nodes G)) <-> node_in h g n;
  gr_edges : forall d n, edgeP (g_nodes G) d n <-> edge_in h g d n;
  gr_dirty : g_dirty G = false -> acyclic (edgeP (g_nodes G));
  gr_nd : NoDup (g_views G);
  gr_views : forall v, In v (g_views G) <-> v = g_stock G \/ view_on h v g;
  gr_stock : ~ view_known h (g_stock G);
  gr_sv : exists S, nth_error (w_views w) (g_stock G) = Some S /\ StockR (g_nodes G) g S
}.
Record WI (h : history) (w : world) : Prop := mkWI {
  wi_g : forall g, graph_known h g <-> g < length (w_graphs w);
  wi_graph : forall g G, nth_error (w_graphs w) g = Some G -> GraphR h w g G;
  wi_vk : forall v, view_known h v -> v < length (w_views w);
  wi_view : forall v g, view_on h v g -> view_known h v /\
     exists G V, nth_error (w_graphs w) g = Some G /\ nth_error (w_views w) v = Some V /\
                 ViewR h (g_nodes G) v g V;
  wi_closed : forall v, view_known h v ->
     (exists g, view_on h v g) \/ (exists V, nth_error (w_views w) v = Some V /\ v_graph V = None);
  wi_node : forall g n, node_in h g n -> g < length (w_graphs w);
  wi_edge : forall g d n, edge_in h g d n -> g < length (w_graphs w)
}.

(** events that change nothing *)
Definition quiet (e : op * result value) : bool :=
  match e with
  | (OLen _, Ok (VInt _)) | (OCycle _, Ok (VCycle _)) | (OCheck _, Ok VUnit) | (OBool _, Ok (VBool _)) => true
  | (OAdd _ _ _, _) | (ORemove _ _, _) => false
  | (_, Err _) => true
  | _ => false
  end.
Ltac qsolve := intros; match goal with e : op * result value |- _ =>
    destruct e as [o r]; destruct o; destruct r as [[]|]; try discriminate; cbn; intuition end.
Lemma quiet_node e h g n : quiet e = true -> node_in (e :: h) g n <-> node_in h g n.
Proof. qsolve. Qed.
Lemma quiet_edge e h g d n : quiet e = true -> edge_in (e :: h) g d n <-> edge_in h g d n.
Proof. qsolve. Qed.
Lemma quiet_handed e h v n : quiet e = true -> handed (e :: h) v n <-> handed h v n.
Proof. qsolve. Qed.
Lemma quiet_done e h v n : quiet e = true -> is_done (e :: h) v n <-> is_done h v n.
Proof. qsolve. Qed.
Lemma quiet_conflict e h v d n : quiet e = true -> conflict (e :: h) v d n <-> conflict h v d n.
Proof. qsolve. Qed.
Lemma quiet_late e h v n : quiet e = true -> late (e :: h) v n <-> late h v n.
Proof. qsolve. Qed.
Lemma quiet_on e h v g : quiet e = true -> view_on (e :: h) v g <-> view_on h v g.
Proof. qsolve. Qed.
Definition new_obj (r : result value) : bool :=
  match r with Ok (VGraph _ _) | Ok (VView _) => true | _ => false end.
Lemma known_graph_same o r h g : new_obj r = false -> graph_known ((o, r) :: h) g <-> graph_known h g.
Proof.
  intros H. unfold graph_known. cbn. split.
  - intros (o' & d & [E|E]); [injection E as -> ->; discriminate|eauto].
  - intros (o' & d & E). eauto.
Qed.
Lemma known_view_same o r h v : new_obj r = false -> view_known ((o, r) :: h) v <-> view_known h v.
Proof.
  intros H. unfold view_known. cbn. split.
  - intros [(o' & d & [E|E])|(o' & [E|E])]; try (injection E as -> ->; discriminate); eauto.
  - intros [(o' & d & E)|(o' & E)]; eauto.
Qed.
Lemma quiet_new o r : quiet (o, r) = true -> new_obj r = false.
Proof. destruct o, r as [[]|]; cbn; auto; discriminate. Qed.

Lemma ViewR_ext h h' N v g V :
  (forall n, handed h' v n <-> handed h v n) -> (forall n, is_done h' v n <-> is_done h v n) ->
  (forall n, late h' v n <-> late h v n) -> (forall d n, conflict h' v d n <-> conflict h v d n) ->
  ViewR h N v g V -> ViewR h' N v g V.
Proof.
  intros H1 H2 H3 H4 []. constructor; auto.
  - eapply VI_ext; [| | |exact vr_inv0]; auto; symmetry; auto.
  - intros. now rewrite H1, H2.
  - intros. now rewrite H2.
  - intros n. rewrite H1, H2. auto.
Qed.

(** replacing one graph by the same with another (sound) dirty bit *)
Definition dirty_eq (w w' : world) : Prop :=
  w_views w' = w_views w /\ length (w_graphs w') = length (w_graphs w) /\
  forall g G', nth_error (w_graphs w') g = Some G' ->
    exists G, nth_error (w_graphs w) g = Some G /\ G' = set_dirty G (g_dirty G') /\
              (g_dirty G' = false -> g_dirty G = false \/ acyclic (edgeP (g_nodes G))).
Lemma dirty_eq_refl w : dirty_eq w w.
Proof. repeat split; auto. intros g G' H. exists G'. split; auto. split; auto. now destruct G'. Qed.
Lemma nth_error_some_lt {A} (l : list A) i x : nth_error l i = Some x -> i < length l.
Proof. intros H. apply nth_error_Some. congruence. Qed.
Lemma dirty_eq_back w w' g G : dirty_eq w w' -> nth_error (w_graphs w) g = Some G ->
  exists G', nth_error (w_graphs w') g = Some G' /\ G' = set_dirty G (g_dirty G').
Proof.
  intros (A & B & C) H. destruct (nth_error (w_graphs w') g) as [G'|] eqn:E.
  - destruct (C g G' E) as (G0 & H0 & H1 & _). rewrite H in H0. injection H0 as <-. eauto.
  - apply nth_error_None in E. apply nth_error_some_lt in H. lia.
Qed.
Lemma WI_quiet h w w' e : WI h w -> quiet e = true -> dirty_eq w w' -> WI (e :: h) w'.
Proof.
  intros [] Q DE. pose proof DE as (A & B & C). destruct e as [o r]. pose proof (quiet_new _ _ Q) as NO.
  constructor.
  - intros g. rewrite known_graph_same, B; auto.
  - intros g G' H. destruct (C g G' H) as (G & H0 & H1 & H2). destruct (wi_graph0 g G H0).
    rewrite H1. constructor; cbn [set_dirty g_nodes g_dirty g_views g_stock g_default].
    + auto.
    + intros. rewrite quiet_node; auto.
    + intros. rewrite quiet_edge; auto.
    + intros F. destruct (H2 F); auto.
    + auto.
    + intros. rewrite quiet_on; auto.
    + rewrite known_view_same; auto.
    + rewrite A. auto.
  - intros v. rewrite known_view_same, A; auto.
  - intros v g. rewrite quiet_on, known_view_same by auto. intros H. destruct (wi_view0 v g H) as (H0 & G & V & H1 & H2 & H3).
    split; auto. destruct (dirty_eq_back _ _ _ _ DE H1) as (G' & H4 & H5). exists G', V. rewrite A.
    split; auto. split; auto. rewrite H5. cbn. eapply ViewR_ext; [| | | |exact H3]; intros.
    + apply quiet_handed; auto. + apply quiet_done; auto. + apply quiet_late; auto. + apply quiet_conflict; auto.
  - intros v. rewrite known_view_same, A; auto. intros H. destruct (wi_closed0 v H) as [[g Hg]|]; auto.
    left. exists g. rewrite quiet_on; auto.
  - intros g n. rewrite quiet_node, B; auto. apply wi_node0.
  - intros g d n. rewrite quiet_edge, B; auto. apply wi_edge0.
Qed.

(** events that only concern one open view: ready, done, reset *)
Definition view_event (e : op * result value) (v : nat) : bool :=
  match e with
  | (OReady u, Ok (VNodes _)) | (ODone u _, Ok VUnit) | (OReset u, Ok VUnit) => (u =? v)%nat
  | _ => false
  end.
Ltac vsolve := intros; match goal with e : op * result value |- _ =>
    destruct e as [o r]; destruct o; destruct r as [[]|]; try discriminate; cbn;
    match goal with H : view_event _ _ = true |- _ => cbn in H; apply Nat.eqb_eq in H; subst end; intuition congruence end.
Lemma vev_node e u h g n : view_event e u = true -> node_in (e :: h) g n <-> node_in h g n.
Proof. vsolve. Qed.
Lemma vev_edge e u h g d n : view_event e u = true -> edge_in (e :: h) g d n <-> edge_in h g d n.
Proof. vsolve. Qed.
Lemma vev_on e u h v g : view_event e u = true -> view_on (e :: h) v g <-> view_on h v g.
Proof. vsolve. Qed.
Lemma vev_handed e u h v n : view_event e u = true -> v <> u -> handed (e :: h) v n <-> handed h v n.
Proof. vsolve. Qed.
Lemma vev_done e u h v n : view_event e u = true -> v <> u -> is_done (e :: h) v n <-> is_done h v n.
Proof. vsolve. Qed.
Lemma vev_conflict e u h v d n : view_event e u = true -> v <> u -> conflict (e :: h) v d n <-> conflict h v d n.
Proof. vsolve. Qed.
Lemma vev_late e u h v n : view_event e u = true -> v <> u -> late (e :: h) v n <-> late h v n.
Proof. vsolve. Qed.
Lemma vev_new o r u : view_event (o, r) u = true -> new_obj r = false.
Proof. destruct o, r as [[]|]; cbn; auto; discriminate. Qed.

Lemma WI_view_event h w w1 e u gu V' : WI h w -> view_event e u = true -> view_on h u gu ->
  dirty_eq w w1 ->
  (forall G, nth_error (w_graphs w) gu = Some G -> ViewR (e :: h) (g_nodes G) u gu V') ->
  WI (e :: h) (put_view w1 u V').
Proof.
  intros [] Q On DE HV. pose proof DE as (A & B & C). destruct e as [o r]. pose proof (vev_new _ _ _ Q) as NO.
  assert (Lu : u < length (w_views w)).
  { destruct (wi_view0 _ _ On) as (K & _). auto. }
  assert (NE : forall v, nth_error (w_views (put_view w1 u V')) v =
      if v =? u then Some V' else nth_error (w_views w) v).
  { intros v. unfold put_view. cbn. rewrite A, nth_error_upd. rewrite (Nat.eqb_sym v u).
    destruct (u =? v) eqn:E; auto. apply Nat.eqb_eq in E. subst.
    destruct (v <? length (w_views w)) eqn:F; auto. apply Nat.ltb_ge in F. lia. }
  constructor.
  - intros g. rewrite known_graph_same; auto. cbn. rewrite B. auto.
  - intros g G' H. cbn in H. destruct (C g G' H) as (G & H0 & H1 & H2). destruct (wi_graph0 g G H0).
    rewrite H1. constructor; cbn [set_dirty g_nodes g_dirty g_views g_stock g_default].
    + auto.
    + intros. rewrite vev_node; eauto.
    + intros. rewrite vev_edge; eauto.
    + intros F. destruct (H2 F); auto.
    + auto.
    + intros. rewrite vev_on; eauto.
    + rewrite known_view_same; auto.
    + destruct gr_sv0 as (S & HS & SR). exists S. split; auto. fold (w_views (put_view w1 u V')).
      change (nth_error (w_views (put_view w1 u V')) (g_stock G) = Some S). rewrite NE.
      destruct (g_stock G =? u) eqn:E; auto. apply Nat.eqb_eq in E. subst u.
      exfalso. apply gr_stock0. destruct (wi_view0 _ _ On); auto.
  - intros v. rewrite known_view_same by auto. cbn. rewrite A, upd_length. auto.
  - intros v g. rewrite (vev_on _ u), known_view_same by auto. intros H. destruct (wi_view0 v g H) as (H0 & G & V & H1 & H2 & H3).
    split; auto. destruct (dirty_eq_back _ _ _ _ DE H1) as (G' & H4 & H5).
    destruct (Nat.eq_dec v u) as [->|Nv].
    + exists G', V'. split; auto. rewrite NE, Nat.eqb_refl. split; auto. rewrite H5. cbn.
      destruct (wi_view0 u gu On) as (_ & G2 & V2 & K1 & K2 & K3).
      assert (g = gu). { destruct H3, K3. congruence. } subst gu. auto.
    + exists G', V. split; auto. rewrite NE. apply Nat.eqb_neq in Nv. rewrite Nv. split; auto.
      apply Nat.eqb_neq in Nv. rewrite H5. cbn. eapply ViewR_ext; [| | | |exact H3]; intros.
      * eapply vev_handed; eauto. * eapply vev_done; eauto. * eapply vev_late; eauto. * eapply vev_conflict; eauto.
  - intros v. rewrite known_view_same; auto. intros H. destruct (wi_closed0 v H) as [[g Hg]|(V & H1 & H2)].
    + left. exists g. rewrite vev_on; eauto.
    + right. exists V. rewrite NE. split; auto. destruct (v =? u) eqn:E; auto. apply Nat.eqb_eq in E. subst v.
      exfalso. destruct (wi_view0 u gu On) as (_ & G2 & V2 & K1 & K2 & []). congruence.
  - intros g n. rewrite (vev_node _ u) by auto. cbn. rewrite B. apply wi_node0.
  - intros g d n. rewrite (vev_edge _ u) by auto. cbn. rewrite B. apply wi_edge0.
Qed.
