(** C138: what repr() and print() show. *)
From Verif Require Import PyBase PyBaseProof PyDict PyDictProof HeapModel HeapSpec HeapProof GraphModel GraphSpec
  GraphProof1 GraphProof2 GraphProof3 GraphProof4 GraphProof5 GraphProof6 GraphProof7 GraphProof8 GraphProof9 GraphProps GraphProps3 ShowModel.
From Coq Require Import Lia.

(** repr(heap) shows the number of items and a least one; it raises IndexError exactly if there is none.  The heap is any that calls can make. *)
Theorem C138_heap_repr_exact :
  forall (A : Type) (ltb eqb : A -> A -> bool), strict_weak ltb ->
  forall (init : list A) (ops : list (hop A)) (h : heap A) (outs : list (result (option A))),
  hrun ltb eqb (heap_init ltb init) ops = (h, outs) ->
  match heap_repr h with
  | Ok (n, x) => n = length (heap_queue ltb h) /\ least ltb x (heap_queue ltb h)
  | Err e => e = IndexError /\ heap_queue ltb h = []
  end.
Proof.
  intros A ltb eqb W init ops h outs R. pose proof (reach_heap ltb eqb W _ _ _ _ R) as H. unfold heap_repr, heap_queue.
  destruct (h_queue h) as [|x t] eqn:Q; [split; reflexivity|]. split; [symmetry; apply Permutation_length, sort_perm|].
  apply least_perm with (x :: t); [apply sort_perm|]. split; [left; reflexivity|]. eapply is_heap_least; eauto.
Qed.
Print Assumptions C138_heap_repr_exact.
(** repr(Heap()) *)
Theorem C138_empty_heap_refuted : ~ forall (init : list Z), exists t, heap_repr (heap_init Z.ltb init) = Ok t.
Proof. intros H. destruct (H []) as [t E]. discriminate. Qed.
Print Assumptions C138_empty_heap_refuted.

(** the ascending list of the numbers with a property *)
Definition ascending_list (P : nat -> Prop) (l : list nat) : Prop := StronglySorted lt l /\ forall n, In n l <-> P n.

Lemma ltb_weak : strict_weak Nat.ltb.
Proof.
  split; [intros a; apply Nat.ltb_irrefl|]. split.
  - intros a b. rewrite Nat.ltb_lt, Nat.ltb_ge. lia.
  - intros a b c. rewrite !Nat.ltb_ge. lia.
Qed.
Lemma ascending_strict l : NoDup l -> StronglySorted (fun a b => Nat.ltb b a = false) l -> StronglySorted lt l.
Proof.
  intros ND S. induction S as [|a l S IH F]; constructor.
  - apply IH. now inversion ND.
  - inversion ND as [|? ? NI ND']; subst. rewrite Forall_forall in *. intros b I. specialize (F b I). apply Nat.ltb_ge in F.
    assert (a <> b) by (intros ->; contradiction). lia.
Qed.
Lemma sorted_listing (P : nat -> Prop) l : NoDup l -> (forall n, In n l <-> P n) -> ascending_list P (sorted_nodes l).
Proof.
  intros ND H. assert (Q : Permutation (sorted_nodes l) l) by apply sort_perm. split.
  - apply ascending_strict; [eapply Permutation_NoDup; [symmetry; exact Q|auto]|]. apply (sort_sorted Nat.ltb ltb_weak).
  - intros n. rewrite <- H. split; apply Permutation_in; [exact Q|symmetry; exact Q].
Qed.

(** a node that the next ready() would give *)
Definition waiting (h : history) (v g n : nat) : Prop :=
  node_in h g n /\ ~ handed h v n /\ ~ late h v n /\ forall d, edge_in h g d n -> is_done h v d.

(** the numbers, and the flag, in repr(view): exactly the flag says whether the methods raise RuntimeError *)
Definition shows (h : history) (v g : nat) (t : view_text) : Prop :=
  (NoDup (t_ready t) /\ forall n, In n (t_ready t) <-> waiting h v g n) /\
  (exists l, ascending_list (fun n => handed h v n /\ ~ is_done h v n) l /\ length l = t_yielded t) /\
  (exists l, ascending_list (is_done h v) l /\ length l = t_done t) /\
  (t_conflicts t = true <-> exists d n, conflict h v d n).

Lemma yield_list (l : list nat) (m : nat -> Prop) : NoDup l -> (forall n, In n l <-> m n) -> forall k, k = length l ->
  exists l', ascending_list m l' /\ length l' = k.
Proof.
  intros ND H k ->. exists (sorted_nodes l). split; [now apply sorted_listing|]. apply Permutation_length, sort_perm.
Qed.

(** repr(view) of an open view *)
Theorem C138_view_repr : forall h w v g, run h w -> good h -> view_on h v g ->
  exists V t, nth_error (w_views w) v = Some V /\ view_repr V = Ok t /\ shows h v g t.
Proof.
  intros h w v g R Gd On. pose proof (run_WI _ _ R Gd) as W.
  destruct (open_view _ _ _ _ W On) as (G & V & EG & EV & VR & GR).
  destruct VR as [Hg [HI HC] Hy Hd Hdh]. exists V. eexists. split; [exact EV|]. unfold view_repr. rewrite Hg. split; [reflexivity|].
  unfold shows. cbn [t_ready t_yielded t_done t_conflicts].
  split; [|split; [|split]].
  - split; [apply HI|]. intros n. rewrite (vi_ready _ _ _ _ _ HI). unfold waiting. rewrite (gr_nodes _ _ _ _ GR).
    assert (Hnh : ~ handed h v n <-> ~ In n (v_yielded V) /\ ~ In n (v_done V)).
    { rewrite Hy, Hd. specialize (Hdh n). destruct (smem_in n (v_done V)) as [I|I]; rewrite Hd in I; tauto. }
    rewrite Hnh. split.
    + intros (K & Y & D & P). split; [exact K|]. split; [tauto|].
      destruct (vi_cnt _ _ _ _ _ HI n) as (k & Ek & Lk); auto; [now apply (gr_nodes _ _ _ _ GR)|].
      rewrite Ek in P. injection P as P. assert (k = 0 /\ cnt (dkeys (g_nodes G)) (fun d => edge (g_nodes G) d n && negb (smem d (v_done V))) = 0) as [-> Z0] by lia.
      split; [tauto|]. intros d E. rewrite cnt_zero in Z0. apply (gr_edges _ _ _ _ GR) in E. unfold edgeP in E.
      assert (Kd : In d (dkeys (g_nodes G))) by (eapply edge_key; exact E).
      specialize (Z0 d Kd). rewrite E in Z0. cbn in Z0. apply Hd. apply negb_false_iff in Z0. now apply smem_true.
    + intros (K & [Y D] & L & H). do 3 (split; [auto|]).
      destruct (vi_cnt _ _ _ _ _ HI n) as (k & Ek & Lk); auto; [now apply (gr_nodes _ _ _ _ GR)|].
      rewrite Ek. assert (k = 0) as -> by (destruct k; auto; exfalso; apply L; apply Lk; auto).
      replace (cnt _ _) with 0; [reflexivity|]. symmetry. apply cnt_zero. intros d Kd.
      destruct (edge (g_nodes G) d n) eqn:E; auto. cbn. apply negb_false_iff, smem_true, Hd, H. now apply (gr_edges _ _ _ _ GR).
  - eapply yield_list; [|exact Hy|reflexivity]. apply HI.
  - eapply yield_list; [|exact Hd|reflexivity]. apply HI.
  - destruct HC as [[WF1 WF2] _ Hc _ _]. destruct (v_conf V) as [|[d s] r] eqn:C; cbn; split; try discriminate; try tauto.
    + intros (d & n & Q). apply Hc in Q. destruct Q as (s & Q & _). discriminate.
    + intros _. destruct s as [|n s]; [exfalso; apply (WF2 d []); [cbn; now rewrite Nat.eqb_refl|reflexivity]|].
      exists d, n. apply Hc. exists (n :: s). split; [cbn; now rewrite Nat.eqb_refl|left; reflexivity].
Qed.
Print Assumptions C138_view_repr.

(** repr(view) and print(view) of a view that has been closed: AttributeError, nothing printed; whatever was called since *)
Theorem C138_closed_view : forall h w v x, run h w -> In (OClose v, Ok x) h ->
  (exists V, nth_error (w_views w) v = Some V /\ view_repr V = Err AttributeError) /\ view_print w v = ([], Err AttributeError).
Proof.
  intros h w v x R I. destruct (run_closed _ _ _ _ R I) as (V & E & C).
  split; [exists V; split; [exact E|]|]; unfold view_print, view_repr; rewrite ?E, C; reflexivity.
Qed.
Print Assumptions C138_closed_view.

(** the line of print() about node n of graph g: how many nodes it depends on, and the nodes that depend on it, no node twice *)
Definition node_line (h : history) (g n : nat) (l : line) : Prop :=
  exists c s preds, l = LNode n (Z.of_nat c) s /\ NoDup s /\ (forall m, In m s <-> edge_in h g n m) /\
    NoDup preds /\ (forall d, In d preds <-> edge_in h g d n) /\ length preds = c.
(** what graph.print() prints *)
Definition graph_lines (h : history) (g : nat) (l : list line) : Prop :=
  exists ns body, ascending_list (node_in h g) ns /\ l = LGraph (length ns) :: LCount (length ns) :: body /\ Forall2 (node_line h g) ns body.

Lemma dget_nodup (N : nodes_t) n x : NoDup (dkeys N) -> In (n, x) N -> dget N n = Some x.
Proof.
  induction N as [|[k y] N IH]; intros ND I; [destruct I|]. cbn. inversion ND as [|? ? NI ND']; subst. destruct I as [I|I].
  - injection I as -> ->. now rewrite Nat.eqb_refl.
  - destruct (Nat.eqb_spec n k) as [->|]; [|auto]. exfalso. apply NI. apply in_map_iff. exists (k, x). auto.
Qed.
Lemma items_weak : strict_weak (fun a b : nat * (Z * list nat) => Nat.ltb (fst a) (fst b)).
Proof.
  destruct ltb_weak as (H1 & H2 & H3). split; [intros a; apply H1|]. split; [intros a b; apply H2|intros a b c; apply H3].
Qed.
Lemma keys_ascending (l : nodes_t) : StronglySorted (fun a b => Nat.ltb (fst b) (fst a) = false) l ->
  StronglySorted (fun a b => Nat.ltb b a = false) (map fst l).
Proof.
  induction 1 as [|a l S IH F]; [constructor|]. cbn. constructor; [exact IH|]. rewrite Forall_map. exact F.
Qed.

(** print() of a graph *)
Theorem C138_graph_print : forall h w g, run h w -> good h -> graph_known h g ->
  exists G, nth_error (w_graphs w) g = Some G /\ graph_lines h g (graph_print G).
Proof.
  intros h w g R Gd K. destruct (C17_graph_is_as_declared h w g R Gd K) as (G & EG & Hn & Hs & _ & Nd & Hp).
  destruct (known_graph_get _ _ _ (run_WI _ _ R Gd) K) as (G' & EG' & GR). rewrite EG in EG'. injection EG' as <-.
  pose proof (ni_keys _ (gr_ni _ _ _ _ GR)) as NDk.
  exists G. split; [exact EG|]. unfold graph_print, graph_repr.
  assert (Q : Permutation (sorted_items (g_nodes G)) (g_nodes G)) by apply sort_perm.
  assert (Qk : Permutation (map fst (sorted_items (g_nodes G))) (dkeys (g_nodes G))) by (apply Permutation_map; exact Q).
  exists (map fst (sorted_items (g_nodes G))). eexists. split; [|split].
  - split.
    + apply ascending_strict; [eapply Permutation_NoDup; [symmetry; exact Qk|exact NDk]|].
      apply keys_ascending. apply (sort_sorted _ items_weak).
    + intros n. rewrite <- Hn. split; apply Permutation_in; [exact Qk|symmetry; exact Qk].
  - rewrite map_length, (Permutation_length Q). reflexivity.
  - assert (A : forall x, In x (sorted_items (g_nodes G)) -> node_line h g (fst x) ((fun '(n, (c, s)) => LNode n c s) x)).
    { intros [n [c s]] I. apply (Permutation_in _ Q) in I. pose proof (dget_nodup _ _ _ NDk I) as D.
      assert (In n (dkeys (g_nodes G))) as Kn by (apply in_map_iff; exists (n, (c, s)); auto).
      destruct (Hp n) as (preds & P1 & P2 & P3); [now apply Hn|].
      specialize (Nd n). specialize (Hs n). unfold pc_of in P3. unfold succs_of in Nd, Hs. rewrite D in *.
      exists (length preds), s, preds. cbn [fst]. subst c. repeat split; auto; try (apply Hs); try (apply P2). }
    clear - A. induction (sorted_items (g_nodes G)) as [|x l IH]; [constructor|]. cbn [map]. constructor; [apply A; left; reflexivity|].
    apply IH. intros y I. apply A. right. exact I.
Qed.
Print Assumptions C138_graph_print.

(** print() of an open view: what repr shows, the nodes in each state, those with a conflict, then the graph and an empty line *)
Theorem C138_view_print : forall h w v g, run h w -> good h -> view_on h v g ->
  exists t r y d c gl, view_print w v = ([LView t; LReady r; LYielded y; LDone d; LConflicts c] ++ gl ++ [LBlank], Ok tt) /\
    shows h v g t /\ ascending_list (waiting h v g) r /\ ascending_list (fun n => handed h v n /\ ~ is_done h v n) y /\
    ascending_list (is_done h v) d /\ ascending_list (fun n => exists m, conflict h v n m) c /\ graph_lines h g gl.
Proof.
  intros h w v g R Gd On. pose proof (run_WI _ _ R Gd) as W.
  destruct (on_known _ _ _ _ R Gd On) as [_ K]. destruct (C138_graph_print h w g R Gd K) as (G' & EG' & GL).
  destruct (C138_view_repr h w v g R Gd On) as (V' & t & EV' & ET & SH).
  destruct (open_view _ _ _ _ W On) as (G & V & EG & EV & [Hg [HI [[WF1 WF2] _ Hc _ _]] Hy Hd _] & _).
  rewrite EG in EG'. injection EG' as <-. rewrite EV in EV'. injection EV' as <-.
  unfold view_print. rewrite EV, ET, Hg, EG.
  exists t, (sorted_nodes (v_ready V)), (sorted_nodes (v_yielded V)), (sorted_nodes (v_done V)), (sorted_nodes (dkeys (v_conf V))), (graph_print G).
  split; [reflexivity|]. split; [exact SH|]. destruct SH as ([_ Hr] & _).
  assert (t_ready t = v_ready V) as Et by (unfold view_repr in ET; rewrite Hg in ET; injection ET as <-; reflexivity).
  rewrite Et in Hr. split; [apply sorted_listing; [apply HI|exact Hr]|]. split; [apply sorted_listing; [apply HI|exact Hy]|].
  split; [apply sorted_listing; [apply HI|exact Hd]|]. split; [|exact GL]. apply sorted_listing; [exact WF1|].
  intros n. rewrite dget_some. split.
  - intros (s & E). destruct s as [|m s]; [exfalso; exact (WF2 _ _ E eq_refl)|]. exists m. apply Hc. exists (m :: s). split; [exact E|left; reflexivity].
  - intros (m & Q). apply Hc in Q. destruct Q as (s & E & _). eauto.
Qed.
Print Assumptions C138_view_print.

(** repr() of every view that calls can make: it fails on closed ones *)
Theorem C138_closed_view_refuted : ~ forall h w v V, run h w -> good h -> view_known h v -> nth_error (w_views w) v = Some V ->
  exists t, view_repr V = Ok t.
Proof.
  intros H. assert (R : run (fst (play (calls [ONewGraph; OClose 0]) [] start)) (snd (play (calls [ONewGraph; OClose 0]) [] start))).
  { apply play_run; [|constructor]. unfold calls. intros ord o I. apply in_map_iff in I. destruct I as (? & [= <- <-] & _). apply idord_order. }
  vm_compute play in R. cbn [fst snd] in R. assert (K : view_known [(ONewGraph, Ok (VGraph 0 0))] 0) by (left; exists ONewGraph, 0; cbn; auto).
  destruct (H _ _ 0 v_closed R) as [t Q]; [|exact (or_introl (ex_intro _ ONewGraph (ex_intro _ 0 (or_intror (or_introl eq_refl)))))|reflexivity|discriminate].
  cbn [good good_call]. auto.
Qed.
Print Assumptions C138_closed_view_refuted.

(** the theorems apply: the half worked diamond of GraphProps.v *)
Example C138_shown : view_print demo_w 0 =
  ([LView (mkVT [] 2 1 false); LReady []; LYielded [2; 3]; LDone [1]; LConflicts [];
    LGraph 4; LCount 4; LNode 1 0 [2; 3]; LNode 2 1 [4]; LNode 3 1 [4]; LNode 4 2 []; LBlank], Ok tt).
Proof. vm_compute. reflexivity. Qed.
(** and 2 made to depend on 5 after it was handed out *)
Example C138_shown_conflict : view_print (fst (step idord demo_w (OAdd 0 2 [5]))) 0 =
  ([LView (mkVT [5] 2 1 true); LReady [5]; LYielded [2; 3]; LDone [1]; LConflicts [5];
    LGraph 5; LCount 5; LNode 1 0 [2; 3]; LNode 2 2 [4]; LNode 3 1 [4]; LNode 4 2 []; LNode 5 0 [2]; LBlank], Ok tt).
Proof. vm_compute. reflexivity. Qed.
Example C138_heap_shown : heap_repr (heap_init Z.ltb [5; 3; 9; 1; 3]%Z) = Ok (5, 1%Z).
Proof. vm_compute. reflexivity. Qed.
