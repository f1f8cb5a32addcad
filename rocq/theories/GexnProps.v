(** C119: what a TopologicalSorter call that fails on an unhashable argument leaves behind. *)
From Verif Require Import PyBase PyBaseProof PyDict PyDictProof GraphModel GraphSpec GraphProof1 GraphProof2 GraphProof3 GraphProof4 GraphProof5 GraphProof6 GraphProof7 GraphProps GraphProps2 GexnModel.
From Coq Require Import Lia.

Lemma upd_self {A} (l : list A) : forall i x, nth_error l i = Some x -> upd l i x = l.
Proof. induction l as [|y l IH]; intros [|i] x H; try discriminate; cbn in *; [congruence|]. now rewrite IH. Qed.
Lemma nth_upd {A} (l : list A) : forall i x y, nth_error l i = Some y -> nth_error (upd l i x) i = Some x.
Proof. induction l as [|z l IH]; intros [|i] x y H; try discriminate; cbn in *; eauto. Qed.

Section Fold.
  Context (node : nat).
  Lemma fold_pc deps : forall a x, pc_of (a_nodes (fold_left (add_dep node) deps a)) x = pc_of (a_nodes a) x.
  Proof.
    induction deps as [|d t IH]; intros a x; cbn; auto. rewrite IH. unfold add_dep. destruct (smem node (succs_of (nodes_ensure (a_nodes a) d) d)); cbn; [apply pc_ensure|].
    rewrite pc_of_dset. destruct (x =? d) eqn:E; [apply Nat.eqb_eq in E; subst|]; apply pc_ensure.
  Qed.
  Lemma fold_keys deps : forall a x, In x (dkeys (a_nodes (fold_left (add_dep node) deps a))) <-> In x (dkeys (a_nodes a)) \/ In x deps.
  Proof.
    induction deps as [|d t IH]; intros a x; cbn; [tauto|]. rewrite IH. unfold add_dep.
    destruct (smem node (succs_of (nodes_ensure (a_nodes a) d) d)); cbn [a_nodes]; rewrite ?in_dkeys_dset, in_keys_ensure; intuition.
  Qed.
  Lemma fold_succs deps : forall a d n, In n (succs_of (a_nodes (fold_left (add_dep node) deps a)) d) <-> In n (succs_of (a_nodes a) d) \/ (n = node /\ In d deps).
  Proof.
    induction deps as [|e t IH]; intros a d n; cbn; [tauto|]. rewrite IH. unfold add_dep.
    destruct (smem node (succs_of (nodes_ensure (a_nodes a) e) e)) eqn:S; cbn [a_nodes].
    - rewrite succs_ensure in *. apply smem_true in S. intuition; subst; auto.
    - rewrite succs_of_dset, !succs_ensure. destruct (d =? e) eqn:E; [apply Nat.eqb_eq in E; subst; rewrite in_app_iff; cbn; intuition|apply Nat.eqb_neq in E; intuition; subst; congruence].
  Qed.
  Lemma fold_dirty deps : forall a, (a_dirty a = true -> a_dirty (fold_left (add_dep node) deps a) = true) /\
    (forall d, In d deps -> ~ In node (succs_of (a_nodes a) d) -> a_dirty (fold_left (add_dep node) deps a) = true) /\
    ((forall d, In d deps -> In node (succs_of (a_nodes a) d)) -> a_dirty (fold_left (add_dep node) deps a) = a_dirty a).
  Proof.
    induction deps as [|e t IH]; intros a; cbn; [intuition|]. destruct (IH (add_dep node a e)) as (A & B & C). unfold add_dep in *.
    destruct (smem node (succs_of (nodes_ensure (a_nodes a) e) e)) eqn:S; cbn [a_nodes a_dirty] in *.
    - apply smem_true in S. rewrite succs_ensure in S. split; [auto|]. split.
      + intros d [<-|I] H; [tauto|]. apply (B d I). now rewrite succs_ensure.
      + intros H. apply C. intros d I. rewrite succs_ensure. auto.
    - split; [auto|]. split; [auto|]. intros H. exfalso. apply smem_false in S. rewrite succs_ensure in S. auto.
  Qed.
  Lemma fold_same deps : forall a, (forall d, In d deps -> In d (dkeys (a_nodes a)) /\ In node (succs_of (a_nodes a) d)) ->
    fold_left (add_dep node) deps a = a.
  Proof.
    induction deps as [|d t IH]; intros a H; cbn; auto. destruct (H d (or_introl eq_refl)) as [K S]. assert (E : add_dep node a d = a).
    { unfold add_dep, nodes_ensure. rewrite (proj2 (dmem_true _ _) K), (proj2 (smem_true _ _) S). now destruct a. }
    rewrite E. apply IH. intros. apply H. now right.
  Qed.
End Fold.

(** An unhashable first argument changes nothing: add(), remove() and done() raise TypeError - except that done() of a view that is
    closed or incoherent raises what it always raises then. *)
Theorem C119_first_argument ord w g v deps rest :
  (g < length (w_graphs w) -> xstep ord w (XAdd g Unhashable deps) = (w, Err TypeError) /\ xstep ord w (XRemove g Unhashable) = (w, Err TypeError)) /\
  fst (xstep ord w (XDone v (Unhashable :: rest))) = w /\
  (forall l, snd (step ord w (ODone v l)) = Err (OtherError 0) \/ snd (step ord w (ODone v l)) = Err ValueError \/ snd (step ord w (ODone v l)) = Err RuntimeError \/
             snd (xstep ord w (XDone v (Unhashable :: rest))) = Err TypeError).
Proof.
  split; [|split].
  - intros H. cbn. unfold with_graph. destruct (nth_error (w_graphs w) g) eqn:E; [auto|]. apply nth_error_None in E. lia.
  - cbn. unfold with_open, with_graph, no_conflict. destruct (nth_error (w_views w) v) as [V|] eqn:EV; [|auto]. destruct (v_graph V) as [gi|]; [|auto]. destruct (nth_error (w_graphs w) gi) as [G|]; [|auto].
    destruct (v_conf V); [|auto]. cbn. unfold put_view. destruct w; cbn in *. f_equal. apply upd_self. auto.
  - intros l. cbn. unfold with_open, with_graph, no_conflict. destruct (nth_error (w_views w) v) as [V|] eqn:EV; [|auto]. destruct (v_graph V) as [gi|]; [|auto]. destruct (nth_error (w_graphs w) gi) as [G|]; [|auto].
    destruct (v_conf V); [cbn|]; auto.
Qed.
Print Assumptions C119_first_argument.

(** What add(n, deps) leaves that fails at an unhashable dependency, [ds] being the dependencies before it: n and ds are nodes of the graph and n depends on ds,
    as if it had succeeded; but the number of dependencies that the graph keeps for each node has not changed, and no view has been told.
    If there is a new dependency, the graph knows that it must look for cycles again. *)
Theorem C119_failed_add h w ord g n deps ds : run h w -> good h -> graph_known h g -> hashed deps = (ds, true) ->
  exists G w' G', nth_error (w_graphs w) g = Some G /\ xstep ord w (XAdd g (Node n) deps) = (w', Err TypeError) /\
    w_views w' = w_views w /\ w_graphs w' = upd (w_graphs w) g G' /\ nth_error (w_graphs w') g = Some G' /\ g_views G' = g_views G /\
    (forall x, In x (dkeys (g_nodes G')) <-> node_in h g x \/ x = n \/ In x ds) /\
    (forall d x, In x (succs_of (g_nodes G') d) <-> edge_in h g d x \/ (x = n /\ In d ds)) /\
    (forall x, pc_of (g_nodes G') x = pc_of (g_nodes G) x) /\
    ((exists d, In d ds /\ ~ edge_in h g d n) -> g_dirty G' = true) /\ ((forall d, In d ds -> edge_in h g d n) -> g_dirty G' = g_dirty G).
Proof.
  intros R Gd K Hd. destruct (C17_graph_is_as_declared h w g R Gd K) as (G & EG & HN & HE & _).
  cbn. rewrite Hd. unfold with_graph. rewrite EG. eexists G, _, _. split; [reflexivity|]. split; [reflexivity|].
  unfold add_fails. cbn [w_views w_graphs]. split; [reflexivity|]. split; [reflexivity|]. split; [eapply nth_upd; eauto|]. cbn [g_views g_nodes set_dirty set_nodes].
  split; [reflexivity|]. split; [|split; [|split; [|split]]].
  - intros x. rewrite fold_keys. cbn [a_nodes]. rewrite in_keys_ensure, HN. intuition.
  - intros d x. rewrite fold_succs. cbn [a_nodes]. rewrite succs_ensure, HE. tauto.
  - intros x. rewrite fold_pc. cbn [a_nodes]. apply pc_ensure.
  - intros (d & I & Nd). apply (proj1 (proj2 (fold_dirty n ds _)) d I). cbn [a_nodes]. rewrite succs_ensure, HE. exact Nd.
  - intros H. cbn [g_dirty set_dirty set_nodes]. match goal with |- a_dirty (fold_left _ _ ?a) = _ => change (g_dirty G) with (a_dirty a) at 2; apply (proj2 (proj2 (fold_dirty n ds a))) end. intros d I. cbn [a_nodes]. rewrite succs_ensure, HE. auto.
Qed.
Print Assumptions C119_failed_add.

(** So it changes nothing at all exactly if n was in the graph and already depended on each of ds. *)
Theorem C119_failed_add_unchanged_iff h w ord g n deps ds : run h w -> good h -> graph_known h g -> hashed deps = (ds, true) ->
  (xstep ord w (XAdd g (Node n) deps) = (w, Err TypeError) <-> node_in h g n /\ forall d, In d ds -> edge_in h g d n).
Proof.
  intros R Gd K Hd. destruct (C17_graph_is_as_declared h w g R Gd K) as (G & EG & HN & HE & HEN & _). split.
  - intros H. destruct (C119_failed_add h w ord g n deps ds R Gd K Hd) as (G0 & w' & G' & E0 & H' & _ & _ & E' & _ & A & B & _).
    assert (w' = w) by congruence. subst w'. assert (G' = G) by congruence. subst G'. split.
    + apply HN, A. auto.
    + intros d I. apply HE, B. auto.
  - intros [I E]. cbn. rewrite Hd. unfold with_graph. rewrite EG. f_equal. unfold add_fails.
    assert (M : dmem n (g_nodes G) = true) by (apply dmem_true, HN; auto).
    unfold nodes_ensure. rewrite M. rewrite fold_same.
    + cbn. destruct w as [gs vs]. cbn in *. f_equal. destruct G. cbn in *. now apply upd_self.
    + cbn. intros d Id. specialize (E d Id). split; [apply HN, (HEN d n E)|now apply HE].
Qed.
Print Assumptions C119_failed_add_unchanged_iff.

(** The views are not told: ready() of any view afterwards returns what it would have returned before, or raises. *)
Theorem C119_views_not_told h w ord ord' g n deps ds w' v : run h w -> good h -> graph_known h g -> hashed deps = (ds, true) ->
  xstep ord w (XAdd g (Node n) deps) = (w', Err TypeError) ->
  forall l, snd (step ord' w' (OReady v)) = Ok (VNodes l) -> (exists l', snd (step ord' w (OReady v)) = Ok (VNodes l')) -> snd (step ord' w (OReady v)) = Ok (VNodes l).
Proof.
  intros R Gd K Hd H l. destruct (C119_failed_add h w ord g n deps ds R Gd K Hd) as (G & w1 & G' & EG & H' & EV & EW & _). assert (w1 = w') by congruence. subst w1.
  cbn. unfold with_open, with_graph, no_conflict. rewrite EV. destruct (nth_error (w_views w) v) as [V|]; [|discriminate]. destruct (v_graph V) as [gi|]; [|discriminate].
  destruct (nth_error (w_graphs w') gi) as [G1|]; [|discriminate]. destruct (v_conf V); [|discriminate].
  destruct (g_check ord' (g_nodes G1) (g_dirty G1)) as [d1 [[]|e1]]; cbn; [|discriminate]. intros E. injection E as <-.
  intros [l' E']. destruct (nth_error (w_graphs w) gi) as [G2|]; [|discriminate]. destruct (g_check ord' (g_nodes G2) (g_dirty G2)) as [d2 [[]|e2]]; cbn in *; congruence.
Qed.
Print Assumptions C119_views_not_told.

(** What done(a1, ..., ak, bad, ...) leaves, bad being unhashable and a1..ak all right: ready() then returns what it would return after done(a1, ..., ak); but
    these are not done: done(a1, ..., ak) is still accepted, and bool(view) is what it was. *)
Theorem C119_failed_done : forall h w v g ord pre post, run h w -> good h -> view_on h v g ->
  (forall d m, ~ conflict h v d m) -> (forall n, In n pre -> handed h v n /\ ~ is_done h v n) ->
  exists w1 w2, xstep ord w (XDone v (map Node pre ++ Unhashable :: post)) = (w1, Err TypeError) /\ step ord w (ODone v pre) = (w2, Ok VUnit) /\
    (forall ord', snd (step ord' w1 (OReady v)) = snd (step ord' w2 (OReady v))) /\
    (forall ord', snd (step ord' w1 (ODone v pre)) = Ok VUnit) /\
    (forall ord', snd (step ord' w1 (OBool v)) = snd (step ord' w (OBool v))).
Proof.
  intros h w v g ord pre post R Gd On NC Hp. pose proof (run_WI _ _ R Gd) as W.
  destruct (open_view _ _ _ _ W On) as (G & V & EG & EV & VR & GR).
  destruct (conf_dec _ _ _ _ _ VR) as [[C _]|[_ (d & m & C)]]; [|now apply NC in C].
  pose proof (vr_inv _ _ _ _ _ VR) as [I _]. pose proof (gr_ni _ _ _ _ GR) as HN.
  assert (Hy : forall n, In n pre -> In n (v_yielded V) /\ In n (dkeys (g_nodes G))).
  { intros n Hn. apply Hp in Hn. apply (vr_y _ _ _ _ _ VR) in Hn. split; auto. eapply vi_yk; eauto. }
  destruct (done_loop_kept (g_nodes G) V pre HN (vi_pred _ _ _ _ _ I) Hy) as (V1 & K1 & E1 & _).
  destruct (done_loop_kept (g_nodes G) V1 pre HN (kp_pred _ _ _ K1)) as (V2 & K2 & E2 & _).
  { intros n Hn. rewrite (kp_y _ _ _ K1). auto. }
  assert (Hs : hashed (map Node pre ++ Unhashable :: post) = (pre, true)) by (clear; induction pre as [|x t IH]; cbn; [auto|now rewrite IH]).
  pose proof (nth_error_some_lt _ _ _ EV) as Lv. destruct K1 as [k1 k2 k3 k4 k5 k6].
  assert (L1 : forall X, nth_error (w_views (put_view w v X)) v = Some X).
  { intros X. unfold put_view. cbn [w_views]. rewrite nth_error_upd, Nat.eqb_refl. apply Nat.ltb_lt in Lv. now rewrite Lv. }
  assert (L2 : forall X, nth_error (w_graphs (put_view w v X)) g = Some G) by (intros; exact EG).
  exists (put_view w v V1), (put_view w v (set_yielded (set_done V1 (sunion (v_done V1) pre)) (sdiff (v_yielded V1) pre))).
  pose proof (vr_graph _ _ _ _ _ VR) as Vg.
  split; [|split; [|split; [|split]]].
  - cbn [xstep]. rewrite Hs. unfold with_open, with_graph, no_conflict. rewrite EV, Vg, EG, C, E1. reflexivity.
  - cbn [step]. unfold with_open, with_graph, no_conflict. rewrite EV, Vg, EG, C. unfold v_do_done. rewrite E1. reflexivity.
  - intros ord'. cbn [step]. unfold with_open. rewrite !L1. cbn [v_graph set_yielded set_done]. rewrite k1, Vg. unfold with_graph. rewrite !L2.
    unfold no_conflict. cbn [v_conf set_yielded set_done]. rewrite k4, C. destruct (g_check _ _ _) as [d [[]|]]; reflexivity.
  - intros ord'. cbn [step]. unfold with_open. rewrite !L1, k1, Vg. unfold with_graph. rewrite !L2. unfold no_conflict. rewrite k4, C. unfold v_do_done. rewrite E2. reflexivity.
  - intros ord'. cbn [step]. unfold with_open. rewrite !L1, k1, Vg. unfold with_graph. rewrite !L2, EV, Vg, EG. unfold no_conflict. rewrite k4, C, k3. reflexivity.
Qed.
Print Assumptions C119_failed_done.

(** False: a call that raises changes nothing.  (a) g.add(1, [2]) - a list by mistake - raises TypeError; then g.add(1, 2) raises KeyError, and bool(g) and len(g) count
    a node that ready() never hands out; static_order() would not end. *)
Theorem C119_retry_refuted :
  xresults [XOther ONewGraph; XAdd 0 (Node 1) [Unhashable]; XAdd 0 (Node 1) [Node 2]] start = [Ok (VGraph 0 0); Err TypeError; Err KeyError] /\
  xresults [XOther ONewGraph; XAdd 0 (Node 1) [Unhashable]; XOther (OLen 0); XOther (OReady 0); XOther (OBool 0)] start =
    [Ok (VGraph 0 0); Err TypeError; Ok (VInt 1); Ok (VNodes []); Ok (VBool true)].
Proof. split; reflexivity. Qed.
Print Assumptions C119_retry_refuted.
(** (b) g.add(1); g.add(2); g.add(1, 2, [3]) raises TypeError; g.add(1, 2) is then without effect, and ready() hands out 1 together with 2, on which it depends. *)
Theorem C119_order_refuted :
  xresults [XOther ONewGraph; XAdd 0 (Node 1) []; XAdd 0 (Node 2) []; XAdd 0 (Node 1) [Node 2; Unhashable]; XAdd 0 (Node 1) [Node 2]; XOther (OReady 0)] start =
    [Ok (VGraph 0 0); Ok VUnit; Ok VUnit; Err TypeError; Ok VUnit; Ok (VNodes [1; 2])] /\
  xresults [XOther ONewGraph; XAdd 0 (Node 1) []; XAdd 0 (Node 2) []; XAdd 0 (Node 1) [Node 2]; XOther (OReady 0)] start =
    [Ok (VGraph 0 0); Ok VUnit; Ok VUnit; Ok VUnit; Ok (VNodes [2])].
Proof. split; reflexivity. Qed.
Print Assumptions C119_order_refuted.
(** (c) g.add(2, 1); g.ready() -> (1,); g.done(1, [3]) raises TypeError, and 2 becomes ready although 1 is not done. *)
Theorem C119_done_refuted :
  xresults [XOther ONewGraph; XAdd 0 (Node 2) [Node 1]; XOther (OReady 0); XDone 0 [Node 1; Unhashable]; XOther (OReady 0)] start =
    [Ok (VGraph 0 0); Ok VUnit; Ok (VNodes [1]); Err TypeError; Ok (VNodes [2])].
Proof. reflexivity. Qed.
Print Assumptions C119_done_refuted.

(** With hashable arguments the calls are those of C13-C22. *)
Theorem C119_hashable ord w g v n ns :
  xstep ord w (XAdd g (Node n) (map Node ns)) = step ord w (OAdd g n ns) /\
  xstep ord w (XRemove g (Node n)) = step ord w (ORemove g n) /\
  xstep ord w (XDone v (map Node ns)) = step ord w (ODone v ns).
Proof. assert (H : hashed (map Node ns) = (ns, false)) by (induction ns as [|x t IH]; cbn; [auto|now rewrite IH]). cbn -[step]. rewrite H. auto. Qed.
Print Assumptions C119_hashable.

(** A history of calls in which the failing ones are harmless in the sense of the theorems above is a history of the other calls, to which C13-C22 apply. *)
Inductive xrun : list (xop * result value) -> history -> world -> Prop :=
| xrun_nil : xrun [] [] (mkW [] [])
| xrun_ok xs h w ord o w' r : xrun xs h w -> set_order ord -> step ord w o = (w', r) -> xrun ((XOther o, r) :: xs) ((o, r) :: h) w'
| xrun_add xs h w ord g n deps ds w' r : xrun xs h w -> set_order ord -> hashed deps = (ds, false) -> xstep ord w (XAdd g (Node n) deps) = (w', r) ->
    xrun ((XAdd g (Node n) deps, r) :: xs) ((OAdd g n ds, r) :: h) w'
| xrun_bad_add xs h w ord g n deps ds w' r : xrun xs h w -> good h -> graph_known h g -> hashed deps = (ds, true) -> node_in h g n -> (forall d, In d ds -> edge_in h g d n) ->
    xstep ord w (XAdd g (Node n) deps) = (w', r) -> xrun ((XAdd g (Node n) deps, r) :: xs) h w'
| xrun_bad xs h w ord g deps w' r : xrun xs h w -> good h -> graph_known h g -> xstep ord w (XAdd g Unhashable deps) = (w', r) -> xrun ((XAdd g Unhashable deps, r) :: xs) h w'
| xrun_bad_remove xs h w ord g w' r : xrun xs h w -> good h -> graph_known h g -> xstep ord w (XRemove g Unhashable) = (w', r) -> xrun ((XRemove g Unhashable, r) :: xs) h w'
| xrun_bad_done xs h w ord v rest w' r : xrun xs h w -> xstep ord w (XDone v (Unhashable :: rest)) = (w', r) -> xrun ((XDone v (Unhashable :: rest), r) :: xs) h w'.
Theorem C119_harmless xs h w : xrun xs h w -> run h w.
Proof.
  intros X. induction X as [|xs h w ord o w' r X IH O E|xs h w ord g n deps ds w' r X IH O Hd E|xs h w ord g n deps ds w' r X IH Gd K Hd N Hs E|xs h w ord g deps w' r X IH Gd K E|xs h w ord g w' r X IH Gd K E|xs h w ord v rest w' r X IH E].
  - constructor.
  - econstructor; eauto.
  - cbn in E. rewrite Hd in E. econstructor; eauto.
  - pose proof (proj2 (C119_failed_add_unchanged_iff h w ord g n deps ds IH Gd K Hd) (conj N Hs)) as U. rewrite U in E. injection E as <- _. exact IH.
  - destruct (C17_graph_is_as_declared h w g IH Gd K) as (G & EG & _). assert (L : g < length (w_graphs w)) by (apply nth_error_Some; congruence).
    destruct (C119_first_argument ord w g 0 deps []) as [A _]. destruct (A L) as [A1 A2]. rewrite A1 in E. injection E as <- _. exact IH.
  - destruct (C17_graph_is_as_declared h w g IH Gd K) as (G & EG & _). assert (L : g < length (w_graphs w)) by (apply nth_error_Some; congruence).
    destruct (C119_first_argument ord w g 0 [] []) as [A _]. destruct (A L) as [A1 A2]. rewrite A2 in E. injection E as <- _. exact IH.
  - destruct (C119_first_argument ord w 0 v [] rest) as [_ [A _]]. rewrite E in A. cbn in A. now subst.
Qed.
Print Assumptions C119_harmless.
(** such a history *)
Example C119_witness : exists w, xrun [(XAdd 0 (Node 2) [Node 1; Unhashable], Err TypeError); (XAdd 0 Unhashable [Node 1], Err TypeError); (XAdd 0 (Node 2) [Node 1], Ok VUnit); (XOther ONewGraph, Ok (VGraph 0 0))] [(OAdd 0 2 [1], Ok VUnit); (ONewGraph, Ok (VGraph 0 0))] w.
Proof.
  assert (Kn : graph_known [(OAdd 0 2 [1], Ok VUnit); (ONewGraph, Ok (VGraph 0 0))] 0) by (exists ONewGraph, 0; right; left; reflexivity).
  assert (Gd : good [(OAdd 0 2 [1], Ok VUnit); (ONewGraph, Ok (VGraph 0 0))]).
  { cbn. split; [exists ONewGraph, 0; left; reflexivity|auto]. }
  pose proof (xrun_ok _ _ _ (fun l => l) ONewGraph _ _ xrun_nil (fun l => Permutation.Permutation_refl l) eq_refl) as X1.
  pose proof (xrun_add _ _ _ (fun l => l) 0 2 [Node 1] [1] _ _ X1 (fun l => Permutation.Permutation_refl l) eq_refl eq_refl) as X2. cbn in X2.
  pose proof (xrun_bad _ _ _ (fun l => l) 0 [Node 1] _ _ X2 Gd Kn eq_refl) as X3. cbn in X3.
  pose proof (xrun_bad_add _ _ _ (fun l => l) 0 2 [Node 1; Unhashable] [1] _ _ X3 Gd Kn eq_refl ltac:(cbn; auto) ltac:(cbn; intuition) eq_refl) as X4. cbn in X4.
  eexists. exact X4.
Qed.
