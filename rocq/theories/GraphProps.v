(** Properties C13-C22: big.graph.TopologicalSorter. *)
From Verif Require Import PyBase PyDict GraphModel GraphSpec GraphProof1 GraphProof3 GraphProof4 GraphProof5
  GraphProof6 GraphProof7 GraphProof8 GraphProof9.
From Coq Require Import Lia.

(* ------------------------------------------------------------------ C13, C14 *)
Theorem C13_ready_only_after_predecessors :
  forall h w ord v w' l, run h w -> good h -> set_order ord -> view_known h v ->
    step ord w (OReady v) = (w', Ok (VNodes l)) ->
    exists g, view_on h v g /\
      forall n, In n l -> node_in h g n /\ forall d, edge_in h g d n -> is_done h v d.
Proof.
  intros h w ord v w' l R G O K E. destruct (run_step _ _ ord (OReady v) _ _ R G O K E) as (_ & _ & A).
  cbn in A. destruct A as [[_ A]|(g & On & [[_ A]|[(_ & _ & A)|(_ & _ & l' & [= <-] & _ & H)]])]; try discriminate.
  exists g. split; auto. intros n I. apply H in I. tauto.
Qed.

Theorem C14_ready_at_most_once :
  forall h w ord v w' l, run h w -> good h -> set_order ord -> view_known h v ->
    step ord w (OReady v) = (w', Ok (VNodes l)) ->
    NoDup l /\ forall n, In n l -> ~ handed h v n.
Proof.
  intros h w ord v w' l R G O K E. destruct (run_step _ _ ord (OReady v) _ _ R G O K E) as (_ & _ & A).
  cbn in A. destruct A as [[_ A]|(g & On & [[_ A]|[(_ & _ & A)|(_ & _ & l' & [= <-] & ND & H)]])]; try discriminate.
  split; auto. intros n I. apply H in I. tauto.
Qed.

(* ------------------------------------------------------------------ C15 *)
Theorem C15_static_order_is_topological :
  forall h w g ord, run h w -> good h -> graph_known h g -> set_order ord -> acyclic (edge_in h g) ->
    exists rounds, forall fuel, rounds <= fuel ->
      exists w' out, static_order ord fuel w g = Some (w', Ok out) /\
                     topological (node_in h g) (edge_in h g) out.
Proof. exact static_order_spec. Qed.

(** the while/ready/done loop, whatever the order and grouping of the done() calls: as
    long as some node is not done and nothing handed out is outstanding, ready() returns
    at least one node *)
Theorem C15_loop_makes_progress :
  forall h w v g ord w' r, run h w -> good h -> view_on h v g -> set_order ord ->
    acyclic (edge_in h g) -> (forall d n, ~ conflict h v d n) -> (forall n, node_in h g n -> ~ late h v n) ->
    (exists n, node_in h g n /\ ~ is_done h v n) ->
    (forall n, handed h v n -> is_done h v n) ->
    step ord w (OReady v) = (w', r) ->
    exists n l, r = Ok (VNodes (n :: l)).
Proof. exact progress. Qed.
(** and bool(view) says whether anything is left *)
Theorem C15_bool_means_work_left :
  forall h w ord v w' b, run h w -> good h -> set_order ord -> view_known h v ->
    step ord w (OBool v) = (w', Ok (VBool b)) ->
    exists g, view_on h v g /\ (b = true <-> exists n, node_in h g n /\ ~ is_done h v n).
Proof.
  intros h w ord v w' b R G O K E. destruct (run_step _ _ ord (OBool v) _ _ R G O K E) as (_ & _ & A).
  cbn in A. destruct A as [[_ A]|(g & On & [[_ A]|(_ & b' & [= <-] & H)])]; try discriminate. eauto.
Qed.

(* ------------------------------------------------------------------ C16 *)
Theorem C16_cycle_sound_and_complete :
  forall h w ord g w' r, run h w -> good h -> set_order ord -> graph_known h g ->
    step ord w (OCycle g) = (w', r) ->
    (r = Ok (VCycle None) /\ acyclic (edge_in h g)) \/
    (exists c, r = Ok (VCycle (Some c)) /\ is_cycle (edge_in h g) c /\ ~ acyclic (edge_in h g)).
Proof.
  intros h w ord g w' r R G O K E. destruct (run_step _ _ ord (OCycle g) _ _ R G O K E) as (_ & _ & A).
  cbn in A. destruct A as [[A B]|(c & A & B)]; [left; auto|right; exists c; split; auto; split; auto].
  eapply is_cycle_not_acyclic; eauto.
Qed.
Theorem C16_cycle_errors :
  forall h w ord g w' r, run h w -> good h -> set_order ord -> graph_known h g ->
    step ord w (OCheck g) = (w', r) ->
    (r = Err CycleError <-> ~ acyclic (edge_in h g)) /\ (r = Ok VUnit <-> acyclic (edge_in h g)).
Proof.
  intros h w ord g w' r R G O K E. destruct (run_step _ _ ord (OCheck g) _ _ R G O K E) as (_ & _ & A).
  cbn in A. destruct A as [[A ->]|[A ->]]; split; split; intros; try discriminate; tauto.
Qed.
Theorem C16_ready_cycle_error :
  forall h w ord v g w' r, run h w -> good h -> set_order ord -> view_on h v g ->
    (forall d n, ~ conflict h v d n) ->
    step ord w (OReady v) = (w', r) ->
    (r = Err CycleError <-> ~ acyclic (edge_in h g)) /\ ((exists l, r = Ok (VNodes l)) <-> acyclic (edge_in h g)).
Proof.
  intros h w ord v g w' r R G O On NC E. destruct (on_known _ _ _ _ R G On) as [K _].
  destruct (run_step _ _ ord (OReady v) _ _ R G O K E) as (_ & _ & A).
  cbn in A. destruct A as [[Q _]|(g' & On' & A)]; [now apply Q in On|].
  rewrite (view_on_unique _ _ _ _ _ (run_WI _ _ R G) On' On) in A.
  destruct A as [[(d & n & Q) _]|[(_ & A & ->)|(_ & A & l & -> & _)]]; [now apply NC in Q| |].
  - split; split; intros Q; try tauto. destruct Q; discriminate.
  - split; split; intros Q; try discriminate; try tauto. eauto.
Qed.
Theorem C16_static_order_cycle_error :
  forall h w g ord fuel, run h w -> good h -> graph_known h g -> set_order ord ->
    ~ acyclic (edge_in h g) -> exists w', static_order ord (S fuel) w g = Some (w', Err CycleError).
Proof. exact static_order_cycle. Qed.

(* ------------------------------------------------------------------ C17 *)
(** the graph stores exactly the declared nodes and dependencies, with the right number
    of predecessors for each node *)
Theorem C17_graph_is_as_declared :
  forall h w g, run h w -> good h -> graph_known h g ->
    exists G, nth_error (w_graphs w) g = Some G /\
      (forall n, In n (dkeys (g_nodes G)) <-> node_in h g n) /\
      (forall d n, In n (succs_of (g_nodes G) d) <-> edge_in h g d n) /\
      (forall d n, edge_in h g d n -> node_in h g d /\ node_in h g n) /\
      (forall d, NoDup (succs_of (g_nodes G) d)) /\
      (forall n, node_in h g n -> exists preds, NoDup preds /\ (forall d, In d preds <-> edge_in h g d n) /\
                                                pc_of (g_nodes G) n = Z.of_nat (length preds)).
Proof.
  intros h w g R G K. destruct (known_graph_get _ _ _ (run_WI _ _ R G) K) as (Gr & EG & GR).
  assert (Hs : forall d n, In n (succs_of (g_nodes Gr) d) <-> edge_in h g d n).
  { intros d n. rewrite <- (gr_edges _ _ _ _ GR). unfold edgeP. symmetry. apply edge_succ. }
  exists Gr. split; auto. split; [apply GR|]. split; [exact Hs|].
  split; [|split; [apply GR|]].
  - intros d n He. rewrite <- !(gr_nodes _ _ _ _ GR). apply (gr_edges _ _ _ _ GR) in He.
    split; [eapply edge_key; eauto|eapply ni_closed; [apply GR|exact He]].
  - intros n Hn. exists (filter (fun d => edge (g_nodes Gr) d n) (dkeys (g_nodes Gr))).
    split; [apply NoDup_filter, GR|]. split.
    + intros d. rewrite filter_In, <- (gr_edges _ _ _ _ GR). unfold edgeP. split; [tauto|].
      intros Q. split; auto. eapply edge_key; eauto.
    + rewrite (ni_counts _ (gr_ni _ _ _ _ GR)); [reflexivity|]. apply (gr_nodes _ _ _ _ GR). auto.
Qed.
Theorem C17_len :
  forall h w ord g w' r, run h w -> good h -> set_order ord -> graph_known h g ->
    step ord w (OLen g) = (w', r) ->
    exists l, NoDup l /\ (forall n, In n l <-> node_in h g n) /\ r = Ok (VInt (Z.of_nat (length l))).
Proof.
  intros h w ord g w' r R G O K E. destruct (run_step _ _ ord (OLen g) _ _ R G O K E) as (_ & _ & A). exact A.
Qed.
Theorem C17_add_succeeds :
  forall h w ord g n ds w' r, run h w -> good h -> set_order ord -> graph_known h g ->
    step ord w (OAdd g n ds) = (w', r) -> r = Ok VUnit.
Proof.
  intros h w ord g n ds w' r R G O K E. destruct (run_step _ _ ord (OAdd g n ds) _ _ R G O K E) as (_ & _ & A). exact A.
Qed.
Theorem C17_remove :
  forall h w ord g n w' r, run h w -> good h -> set_order ord -> graph_known h g ->
    step ord w (ORemove g n) = (w', r) ->
    (node_in h g n /\ r = Ok VUnit) \/ (~ node_in h g n /\ r = Err ValueError /\ w' = w).
Proof.
  intros h w ord g n w' r R G O K E. destruct (run_step _ _ ord (ORemove g n) _ _ R G O K E) as (_ & _ & A).
  cbn in A. destruct A as [A|[A ->]]; auto. right. split; auto. split; auto.
  destruct (known_graph_get _ _ _ (run_WI _ _ R G) K) as (Gr & EG & GR).
  cbn in E. unfold with_graph in E. rewrite EG in E. unfold g_remove in E.
  destruct (dmem n (g_nodes Gr)) eqn:D.
  - exfalso. apply A. apply (gr_nodes _ _ _ _ GR). now apply PyDictProof.dmem_true.
  - cbn in E. congruence.
Qed.

(* ------------------------------------------------------------------ C18 *)
Theorem C18_conflicts_are_detected :
  forall h w ord v g o w' r, run h w -> good h -> set_order ord -> view_on h v g ->
    (o = OReady v \/ o = OBool v \/ exists ns, o = ODone v ns) -> good_call h o ->
    step ord w o = (w', r) ->
    (r = Err RuntimeError <-> exists d n, conflict h v d n).
Proof.
  intros h w ord v g o w' r R G O On Ho Gc E.
  destruct (run_step _ _ ord o _ _ R G O Gc E) as (_ & _ & A).
  destruct Ho as [->|[->|(ns & ->)]]; cbn in A.
  - destruct A as [[Q _]|(g' & On' & [[A ->]|[(A & _ & ->)|(A & _ & l & -> & _)]])];
      [now apply Q in On|tauto| |]; (split; [discriminate|intros (d & n & Q); now apply A in Q]).
  - destruct A as [[Q _]|(g' & On' & [[A ->]|(A & b & -> & _)])];
      [now apply Q in On|tauto|]; (split; [discriminate|intros (d & n & Q); now apply A in Q]).
  - destruct A as [[Q _]|(_ & [[A ->]|[A ->]])];
      [now apply Q in On|tauto|]; (split; [discriminate|intros (d & n & Q); now apply A in Q]).
Qed.

(* ------------------------------------------------------------------ C19 *)
(** [o] is ready/done/bool/reset/close on view [v]; [l] is any sequence of calls on the
    graphs and on the other views.  They return the same values whether or not [o] was
    made first. *)
Theorem C19_views_are_independent :
  forall h w v ord o w' r l, run h w -> good h -> set_order ord -> good_call h o ->
    view_known h v -> about_view v o -> (forall u, o <> OViewCopy u) -> step ord w o = (w', r) ->
    (forall ord o, In (ord, o) l -> set_order ord /\ ~ about_view v o) ->
    good (fst (play l h w)) ->
    results l w' = results l w.
Proof. exact views_independent. Qed.

(* ------------------------------------------------------------------ C20 *)
(** Partial: until the next add/remove, an acyclic graph and its copy (through their
    default views) behave each as the original alone would have. *)
Theorem C20_copy_behaves_until_modified_partial :
  forall h w g G ord w' c d', run h w -> good h -> nth_error (w_graphs w) g = Some G ->
    view_on h (g_default G) g -> acyclic (edge_in h g) ->
    step ord w (OCopy g) = (w', Ok (VGraph c d')) ->
    forall l : list (bool * ((list nat -> list nat) * vcall)),
    (forall b ord c, In (b, (ord, c)) l -> set_order ord) ->
    let both := results (map (fun p : bool * ((list nat -> list nat) * vcall) => (fst (snd p), on_view (if fst p then g_default G else d') (snd (snd p)))) l) w' in
    let alone b := results (map (fun p : bool * ((list nat -> list nat) * vcall) => (fst (snd p), on_view (g_default G) (snd (snd p))))
                                (filter (fun p : bool * ((list nat -> list nat) * vcall) => eqb (fst p) b) l)) w in
    forall b, map snd (filter (fun p : bool * result value => eqb (fst p) b) (combine (map fst l) both)) = alone b.
Proof. exact copy_replays. Qed.

Definition idord (l : list nat) := l.
Lemma idord_order : set_order idord. Proof. intros l. apply Permutation_refl. Qed.
Definition calls (l : list op) : list ((list nat -> list nat) * op) := map (fun o => (idord, o)) l.
Definition start := mkW [] [].

(** False of the code: the copy's views are registered with the original.
    g = TopologicalSorter(); g.add(1); c = g.copy(); then (a) c.add(1, 2), which is legal
    on g, raises KeyError; (b) after c.add(5), c.ready() does not return 5;
    (c) g.add(7) makes c.ready() return 7, which is not a node of c. *)
Theorem C20_copy_cannot_be_modified_refuted :
  results (calls [ONewGraph; OAdd 0 1 []; OCopy 0; OAdd 1 1 [2]]) start =
    [Ok (VGraph 0 0); Ok VUnit; Ok (VGraph 1 4); Err KeyError] /\
  results (calls [ONewGraph; OAdd 0 1 []; OCopy 0; OAdd 1 5 []; OReady 4; OLen 1]) start =
    [Ok (VGraph 0 0); Ok VUnit; Ok (VGraph 1 4); Ok VUnit; Ok (VNodes [1]); Ok (VInt 2)] /\
  results (calls [ONewGraph; OAdd 0 1 []; OCopy 0; OAdd 0 7 []; OReady 4; OLen 1]) start =
    [Ok (VGraph 0 0); Ok VUnit; Ok (VGraph 1 4); Ok VUnit; Ok (VNodes [1; 7]); Ok (VInt 1)].
Proof. vm_compute. repeat split. Qed.
(** A cycle that was never looked for is forgotten: the copy of a cyclic graph reports no
    cycle, and its static_order runs for ever. *)
Lemma order_loop_stuck ord v : forall fuel w, (forall ord, set_order ord -> forall o, In o [OBool v; OReady v; ODone v []] ->
   step ord w o = (w, match o with OBool _ => Ok (VBool true) | OReady _ => Ok (VNodes []) | _ => Ok VUnit end)) ->
  set_order ord -> order_loop ord fuel w v [] = None.
Proof.
  induction fuel as [|f IH]; intros w H HO; auto. cbn [order_loop].
  rewrite !H by (cbn; auto). cbn [app]. auto.
Qed.
Theorem C20_copy_forgets_cycles_refuted :
  results (calls [ONewGraph; OAdd 0 1 [1]; OCopy 0; OCycle 0; OCycle 1]) start =
    [Ok (VGraph 0 0); Ok VUnit; Ok (VGraph 1 4); Ok (VCycle (Some [1])); Ok (VCycle None)] /\
  forall ord fuel, set_order ord ->
    static_order ord fuel (snd (play (calls [ONewGraph; OAdd 0 1 [1]; OCopy 0]) [] start)) 1 = None.
Proof.
  split; [reflexivity|]. intros ord fuel HO. unfold static_order. vm_compute play. cbn [snd].
  cbn [step with_graph nth_error w_graphs copy_view w_views g_stock v_graph upd length g_views set_views app].
  apply order_loop_stuck; auto.
  intros o1 _ o [<-|[<-|[<-|[]]]]; reflexivity.
Qed.

(* ------------------------------------------------------------------ C21 *)
(** What the code does: a node is handed out exactly when it has not been, all its
    predecessors are done, and it is not "late", i.e. no dependency of it on a node that
    was already done was added while it was not done itself. *)
Theorem C21_ready_exactly_partial :
  forall h w ord v g w' l, run h w -> good h -> set_order ord -> view_on h v g ->
    step ord w (OReady v) = (w', Ok (VNodes l)) ->
    forall n, In n l <-> node_in h g n /\ ~ handed h v n /\ ~ late h v n /\
                         forall d, edge_in h g d n -> is_done h v d.
Proof.
  intros h w ord v g w' l R G O On E. destruct (on_known _ _ _ _ R G On) as [K _].
  destruct (run_step _ _ ord (OReady v) _ _ R G O K E) as (_ & _ & A). cbn in A.
  destruct A as [[_ A]|(g' & On' & [[_ A]|[(_ & _ & A)|(_ & _ & l' & [= <-] & _ & H)]])]; try discriminate.
  now rewrite (view_on_unique _ _ _ _ _ (run_WI _ _ R G) On' On) in H.
Qed.
(** So a late node is never handed out again by that view, whatever is called later, short
    of resetting the view or removing the node. *)
Theorem C21_late_node_is_blocked :
  forall h w v n ext ord w' l, late h v n ->
    run (ext ++ h) w -> good (ext ++ h) -> set_order ord -> view_known (ext ++ h) v ->
    (forall r, ~ In (OReset v, r) ext) -> (forall g r, ~ In (ORemove g n, r) ext) ->
    (forall e, In e ext -> ~ creates e v) ->
    step ord w (OReady v) = (w', Ok (VNodes l)) -> ~ In n l.
Proof.
  intros h w v n ext ord w' l L R G O K H1 H2 H3 E I.
  pose proof (late_persists ext h v n L H1 H2 H3) as L'.
  destruct (run_step _ _ ord (OReady v) _ _ R G O K E) as (_ & _ & A). cbn in A.
  destruct A as [[_ A]|(g' & On' & [[_ A]|[(_ & _ & A)|(_ & _ & l' & [= <-] & _ & H)]])]; try discriminate.
  apply H in I. tauto.
Qed.
(** g.add(1); g.ready(); g.done(1); g.add(2, 1): node 2 depends only on the finished 1,
    bool(g) says there is work left, and ready() is empty, now and for ever. *)
Definition late_history := fst (play (calls [ONewGraph; OAdd 0 1 []; OReady 0; ODone 0 [1]; OAdd 0 2 [1]]) [] start).
Theorem C21_late_dependency_blocks_refuted :
  results (calls [ONewGraph; OAdd 0 1 []; OReady 0; ODone 0 [1]; OAdd 0 2 [1]; OBool 0; OReady 0; OBool 0; OReady 0]) start =
    [Ok (VGraph 0 0); Ok VUnit; Ok (VNodes [1]); Ok VUnit; Ok VUnit; Ok (VBool true); Ok (VNodes []); Ok (VBool true); Ok (VNodes [])] /\
  late late_history 0 2 /\ node_in late_history 0 2 /\ ~ handed late_history 0 2 /\
  (forall d, edge_in late_history 0 d 2 -> is_done late_history 0 d).
Proof.
  split; [reflexivity|]. unfold late_history. vm_compute play. cbn.
  split; [|split; [tauto|split; [intuition congruence|]]].
  - left. split; [tauto|]. split; auto. split; [intuition congruence|]. exists 1. split; [auto|]. split; [tauto|].
    left. auto.
  - intros d [(_ & _ & [<-|[]])|[(_ & Q & _)|[]]]; [|discriminate]. split; [|auto]. left. auto.
Qed.

(* ------------------------------------------------------------------ C22 *)
Theorem C22_failed_done_changes_nothing_partial :
  forall h w v g ord ns w' e, run h w -> good h -> view_on h v g ->
    (forall n m, In n ns -> ~ edge_in h g n m) ->
    step ord w (ODone v ns) = (w', Err e) -> w' = w.
Proof. exact done_no_successors. Qed.
Theorem C22_first_argument_bad_partial :
  forall h w v g ord n ns w' r, run h w -> good h -> view_on h v g ->
    (forall d m, ~ conflict h v d m) -> ~ (handed h v n /\ ~ is_done h v n) ->
    step ord w (ODone v (n :: ns)) = (w', r) -> w' = w /\ r = Err ValueError.
Proof. exact done_first_bad. Qed.
(** False in general.  (a) g.add(2, 1); g.ready() -> (1,); g.done(1, 9) raises ValueError,
    yet afterwards g.ready() -> (2,) although 1 was never marked done. *)
Theorem C22_failed_done_changes_view_refuted :
  results (calls [ONewGraph; OAdd 0 2 [1]; OReady 0; ODone 0 [1; 9]; OReady 0]) start =
    [Ok (VGraph 0 0); Ok VUnit; Ok (VNodes [1]); Err ValueError; Ok (VNodes [2])] /\
  results (calls [ONewGraph; OAdd 0 2 [1]; OReady 0; OReady 0]) start =
    [Ok (VGraph 0 0); Ok VUnit; Ok (VNodes [1]); Ok (VNodes [])].
Proof. split; reflexivity. Qed.
(** (b) g.add(3, 1, 2); g.ready() -> (1, 2); g.done(1, 1) makes 3 ready while 2 is not
    done; g.done(1) does not. *)
Theorem C22_duplicate_argument_refuted :
  results (calls [ONewGraph; OAdd 0 3 [1; 2]; OReady 0; ODone 0 [1; 1]; OReady 0]) start =
    [Ok (VGraph 0 0); Ok VUnit; Ok (VNodes [1; 2]); Ok VUnit; Ok (VNodes [3])] /\
  results (calls [ONewGraph; OAdd 0 3 [1; 2]; OReady 0; ODone 0 [1]; OReady 0]) start =
    [Ok (VGraph 0 0); Ok VUnit; Ok (VNodes [1; 2]); Ok VUnit; Ok (VNodes [])].
Proof. split; reflexivity. Qed.

(* ------------------------------------------------------------------ non-vacuity *)
Lemma play_run l : (forall ord o, In (ord, o) l -> set_order ord) -> forall h w, run h w ->
  run (fst (play l h w)) (snd (play l h w)).
Proof.
  induction l as [|[ord o] t IH]; intros HO h w R; cbn; auto.
  destruct (step ord w o) as [w' r] eqn:E. apply IH.
  - intros. eapply HO. cbn. eauto.
  - econstructor; eauto. eapply HO. cbn. eauto.
Qed.
(** a diamond 1 -> 2, 1 -> 3, {2, 3} -> 4, worked half way in the default view, with a
    second view, then a dependency of the handed-out 2 on the unfinished 5 *)
Definition demo := [ONewGraph; OAdd 0 4 [2; 3]; OAdd 0 2 [1]; OAdd 0 3 [1; 1]; OView 0; OReady 0; ODone 0 [1]; OReady 0].
Definition demo_h := fst (play (calls demo) [] start).
Definition demo_w := snd (play (calls demo) [] start).
Example demo_results : results (calls demo) start =
  [Ok (VGraph 0 0); Ok VUnit; Ok VUnit; Ok VUnit; Ok (VView 2); Ok (VNodes [1]); Ok VUnit; Ok (VNodes [2; 3])].
Proof. reflexivity. Qed.
Example demo_run : run demo_h demo_w.
Proof.
  apply play_run; [|constructor]. unfold calls. intros ord o I. apply in_map_iff in I.
  destruct I as (? & [= <- <-] & _). apply idord_order.
Qed.
Example demo_good : good demo_h.
Proof.
  unfold demo_h. vm_compute play. cbn [fst].
  assert (GK : forall l : history, graph_known (l ++ [(ONewGraph, Ok (VGraph 0 0))]) 0).
  { intros l. exists ONewGraph, 0. apply in_app_iff. cbn. auto. }
  assert (VK : forall l : history, view_known (l ++ [(ONewGraph, Ok (VGraph 0 0))]) 0).
  { intros l. left. exists ONewGraph, 0. apply in_app_iff. cbn. auto. }
  cbn [good good_call].
  split; [exact (VK [_; _; _; _; _; _])|].
  split.
  { split; [exact (VK [_; _; _; _; _])|]. split; [constructor; [easy|constructor]|].
    intros n [<-|[]]. cbn. intuition congruence. }
  split; [exact (VK [_; _; _; _])|].
  split; [exact (GK [_; _; _])|].
  split; [exact (GK [_; _])|].
  split; [exact (GK [_])|].
  split; [exact (GK [])|]. auto.
Qed.
Example demo_facts : view_on demo_h 0 0 /\ view_on demo_h 2 0 /\ handed demo_h 0 2 /\ ~ is_done demo_h 0 2 /\
  is_done demo_h 0 1 /\ ~ handed demo_h 2 1 /\ node_in demo_h 0 4 /\ edge_in demo_h 0 2 4 /\
  (forall d n, ~ conflict demo_h 0 d n) /\ (forall n, ~ late demo_h 0 n).
Proof. unfold demo_h. vm_compute play. cbn. intuition (try congruence). all: firstorder congruence. Qed.
(** C15/C20: the demo graph is acyclic (cycle() says so, and it is right), and C18: adding
    the dependency of 2 on 5 makes ready() raise *)
Example demo_acyclic : acyclic (edge_in demo_h 0).
Proof.
  assert (K : graph_known demo_h 0).
  { exists ONewGraph, 0. unfold demo_h. vm_compute play. cbn. tauto. }
  destruct (step idord demo_w (OCycle 0)) as [w' r] eqn:E.
  assert (Q : r = Ok (VCycle None)) by (change r with (snd (w', r)); rewrite <- E; reflexivity). subst r.
  destruct (C16_cycle_sound_and_complete demo_h demo_w idord 0 _ _ demo_run demo_good idord_order
              K E) as [[_ A]|(c & Q & _)]; [auto|discriminate].
Qed.
Example demo_order : exists w', static_order idord 6 demo_w 0 = Some (w', Ok [1; 2; 3; 4]).
Proof. eexists. vm_compute. reflexivity. Qed.
Example demo_cycle : results (calls (demo ++ [OAdd 0 1 [4]; OCycle 0; OCheck 0])) start =
  results (calls demo) start ++ [Ok VUnit; Ok (VCycle (Some [4; 1; 2])); Err CycleError].
Proof. vm_compute. reflexivity. Qed.
Example demo_conflict : results (calls (demo ++ [OAdd 0 2 [5]; OReady 0; OReady 2; ORemove 0 5; OReady 0])) start =
  results (calls demo) start ++ [Ok VUnit; Err RuntimeError; Ok (VNodes [1; 5]); Ok VUnit; Ok (VNodes [])].
Proof. vm_compute. reflexivity. Qed.

Print Assumptions C13_ready_only_after_predecessors.
Print Assumptions C14_ready_at_most_once.
Print Assumptions C15_static_order_is_topological.
Print Assumptions C15_loop_makes_progress.
Print Assumptions C15_bool_means_work_left.
Print Assumptions C16_cycle_sound_and_complete.
Print Assumptions C16_cycle_errors.
Print Assumptions C16_ready_cycle_error.
Print Assumptions C16_static_order_cycle_error.
Print Assumptions C17_graph_is_as_declared.
Print Assumptions C17_len.
Print Assumptions C17_add_succeeds.
Print Assumptions C17_remove.
Print Assumptions C18_conflicts_are_detected.
Print Assumptions C19_views_are_independent.
Print Assumptions C20_copy_behaves_until_modified_partial.
Print Assumptions C20_copy_cannot_be_modified_refuted.
Print Assumptions C20_copy_forgets_cycles_refuted.
Print Assumptions C21_ready_exactly_partial.
Print Assumptions C21_late_node_is_blocked.
Print Assumptions C21_late_dependency_blocks_refuted.
Print Assumptions C22_failed_done_changes_nothing_partial.
Print Assumptions C22_first_argument_bad_partial.
Print Assumptions C22_failed_done_changes_view_refuted.
Print Assumptions C22_duplicate_argument_refuted.
