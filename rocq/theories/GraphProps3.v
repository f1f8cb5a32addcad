(** C107: a closed view stays closed, whatever happens to its graph. *)
From Verif Require Import PyBase PyBaseProof PyDict PyDictProof GraphModel GraphSpec GraphProof1 GraphProof2 GraphProof3 GraphProof4 GraphProof5 GraphProof6 GraphProof7 GraphProof8 GraphProof9 GraphProps.
From Coq Require Import Lia.

Definition closed_in (w : world) (v : nat) : Prop := exists V, nth_error (w_views w) v = Some V /\ v_graph V = None.

Lemma for_each_graph {A} (f : view -> A -> view * result unit) : (forall V a, v_graph (fst (f V a)) = v_graph V) ->
  forall l V, v_graph (fst (for_each f V l)) = v_graph V.
Proof.
  intros H l. induction l as [|a l IH]; intros V; [reflexivity|]. cbn [for_each]. specialize (H V a). destruct (f V a) as [V' [|]]; cbn [fst] in *; [|auto].
  rewrite IH. auto.
Qed.
Lemma mark_one_graph V n : v_graph (fst (v_mark_one V n)) = v_graph V.
Proof. unfold v_mark_one. destruct (_ || _); auto. destruct (dget _ _); auto. destruct (_ =? 0)%Z; auto. Qed.
Lemma mark_done_graph V l : v_graph (fst (v_mark_done V l)) = v_graph V.
Proof. apply for_each_graph, mark_one_graph. Qed.
Lemma add_succ_graph V n s : v_graph (fst (v_add_successor V n s)) = v_graph V.
Proof.
  unfold v_add_successor. destruct (_ && _); cbn [set_confs v_done v_pred]; destruct (negb _); auto;
  destruct (dget _ _); auto; destruct (_ =? 1)%Z; auto.
Qed.
Lemma clear_conflicts_graph V n : v_graph (v_clear_conflicts V n) = v_graph V.
Proof. unfold v_clear_conflicts. destruct (_ || _); auto. destruct (clear_pass (v_conf V) _ _) as [c r]. destruct (clear_pass r c n). reflexivity. Qed.
Lemma remove_node_graph V n s : v_graph (fst (v_remove_node V n s)) = v_graph V.
Proof.
  unfold v_remove_node. destruct (smem _ _); [apply clear_conflicts_graph|].
  destruct (smem _ _); cbn [set_ready set_yielded v_pred]; destruct (dmem _ _); rewrite ?mark_done_graph; cbn; apply clear_conflicts_graph.
Qed.
Lemma add_nodes_graph V l : v_graph (v_add_nodes V l) = v_graph V.
Proof. unfold v_add_nodes. revert V. induction l as [|n l IH]; intros V; auto. cbn [fold_left]. rewrite IH. auto. Qed.
Lemma do_done_graph N V l : v_graph (fst (v_do_done N V l)) = v_graph V.
Proof.
  unfold v_do_done, v_done_loop. match goal with |- context [for_each ?f V l] => assert (H : v_graph (fst (for_each f V l)) = v_graph V) end.
  { apply for_each_graph. intros U a. destruct (negb _); auto. destruct (negb _); auto. apply mark_done_graph. }
  destruct (for_each _ V l) as [V' [|]]; auto.
Qed.

Definition closed_at (s : list view) (v : nat) : Prop := exists V, nth_error s v = Some V /\ v_graph V = None.
Lemma closed_upd s v i X : closed_at s v -> (forall V, nth_error s i = Some V -> v_graph V = None -> v_graph X = None) -> closed_at (upd s i X) v.
Proof.
  intros (V & E & C) H. unfold closed_at. rewrite nth_error_upd. destruct (Nat.eqb_spec i v) as [->|Hn].
  - pose proof (nth_error_some_lt _ _ _ E) as L. apply Nat.ltb_lt in L. rewrite L. exists X. split; auto. eauto.
  - eauto.
Qed.
Lemma closed_app s v l : closed_at s v -> closed_at (s ++ l) v.
Proof. intros (V & E & C). exists V. split; auto. rewrite nth_error_app1; auto. eapply nth_error_some_lt; eauto. Qed.
Lemma closed_notify f v : (forall V, v_graph (fst (f V)) = v_graph V) -> forall l s, closed_at s v -> closed_at (fst (notify f s l)) v.
Proof.
  intros H. unfold notify. induction l as [|i l IH]; intros s C; auto. cbn [for_each].
  destruct (nth_error s i) as [V|] eqn:E; [|auto]. specialize (H V). destruct (f V) as [V' r] eqn:F. cbn [fst] in H.
  assert (C' : closed_at (upd s i V') v) by (apply closed_upd; auto; intros U EU; congruence).
  destruct r; auto.
Qed.
Lemma step_closed ord w o v : closed_in w v -> closed_in (fst (step ord w o)) v.
Proof.
  unfold closed_in. change (closed_at (w_views w) v -> closed_at (w_views (fst (step ord w o))) v). intros C.
  destruct o; cbn [step]; try (unfold with_graph; destruct (nth_error (w_graphs w) g) as [G|]; [|assumption]);
    try (unfold with_open; destruct (nth_error (w_views w) v0) as [V|] eqn:EV; [|assumption]; destruct (v_graph V) as [gi|] eqn:Vg; [|assumption];
         unfold with_graph; destruct (nth_error (w_graphs w) gi) as [G|]; [|assumption]); unfold no_conflict; try (destruct (v_conf V); [|assumption]).
  - cbn. now apply closed_app.
  - unfold g_add. set (a := add_nodes_part _ _ _ _).
    assert (C1 : closed_at (fst (match a_new a with [] => (w_views w, Ok tt) | ns => notify (fun v => (v_add_nodes v ns, Ok tt)) (w_views w) (g_views G) end)) v).
    { destruct (a_new a) eqn:E; auto. apply closed_notify; auto. intros V. apply add_nodes_graph. }
    destruct (match a_new a with [] => _ | _ => _ end) as [s1 [u|e]]; cbn [fst] in C1; [|cbn; auto].
    pose proof (closed_notify (fun v => for_each (fun v s => v_add_successor v s n) v (a_succ a)) v
      (fun V => for_each_graph _ (fun U b => add_succ_graph U b n) (a_succ a) V) (g_views G) s1 C1) as C2.
    destruct (notify _ s1 _) as [s2 r2]. cbn in *. destruct r2; auto.
  - unfold g_remove. destruct (negb _); [assumption|]. destruct (remove_nodes_part _ _) as [N ss].
    pose proof (closed_notify (fun v => v_remove_node v n ss) v (fun V => remove_node_graph V n ss) (g_views G) _ C) as C2.
    destruct (notify _ _ _) as [s2 r2]. cbn in *. auto.
  - unfold g_copy. destruct (nth_error _ _) as [D|]; [|assumption]. destruct (nth_error _ (g_stock G)) as [S|]; [|assumption].
    destruct (v_graph D); [|assumption]. cbn. now apply closed_app, closed_app.
  - unfold copy_view. destruct (nth_error _ _) as [V|]; [|assumption]. destruct (v_graph V); [|assumption].
    destruct (nth_error _ n); [|assumption]. cbn. now apply closed_app.
  - assumption.
  - destruct (g_cycle _ _ _) as [d r]. destruct r; assumption.
  - destruct (g_check _ _ _) as [d r]. destruct r; assumption.
  - destruct (g_check _ _ _) as [d [r|]]; [|assumption]. cbn. apply closed_upd; auto. intros U EU. congruence.
  - pose proof (do_done_graph (g_nodes G) V ns) as Hg. destruct (v_do_done _ _ _) as [V' r]. cbn in *. apply closed_upd; auto. intros U EU. congruence.
  - assumption.
  - destruct (nth_error _ (g_stock G)) as [S|]; [|assumption]. cbn. apply closed_upd; auto. intros U EU. congruence.
  - destruct (smem _ _); [|assumption]. cbn. apply closed_upd; auto.
  - unfold copy_view. destruct (nth_error _ _) as [V|]; [|assumption]. destruct (v_graph V); [|assumption].
    destruct (nth_error _ n); [|assumption]. cbn. now apply closed_app.
Qed.
Lemma close_closes ord w v w' x : step ord w (OClose v) = (w', Ok x) -> closed_in w' v.
Proof.
  cbn [step]. unfold with_open. destruct (nth_error _ v) as [V|] eqn:E; [|discriminate]. destruct (v_graph V); [|discriminate].
  unfold with_graph. destruct (nth_error _ n); [|discriminate]. destruct (smem _ _); [|discriminate]. intros H. injection H as <- _.
  exists v_closed. split; auto. cbn. rewrite nth_error_upd, Nat.eqb_refl. apply nth_error_some_lt in E. apply Nat.ltb_lt in E. now rewrite E.
Qed.
Lemma run_closed h w v x : run h w -> In (OClose v, Ok x) h -> closed_in w v.
Proof.
  induction 1 as [|h w ord o w' r R IH HO E]; [intros []|]. intros [H|H].
  - injection H as -> ->. eapply close_closes; eauto.
  - replace w' with (fst (step ord w o)) by now rewrite E. apply step_closed. auto.
Qed.

(** C107: once close() has succeeded on a view, then forever - whatever calls are made on the
    graph, on other views and on this one - every method of the view (ready, done, bool, reset,
    close, copy) raises ValueError and changes nothing.  No assumption on the calls. *)
Theorem C107_closed_view_is_dead : forall h w v x ord o, run h w -> In (OClose v, Ok x) h -> about_view v o ->
  step ord w o = (w, Err ValueError).
Proof.
  intros h w v x ord o R I A. destruct (run_closed _ _ _ _ R I) as (V & E & C).
  destruct o; cbn in A; try contradiction; subst v0; cbn [step]; unfold with_open, copy_view; rewrite E, C; reflexivity.
Qed.
Print Assumptions C107_closed_view_is_dead.
(** A first close() of a view known to be open succeeds (on graphs that are not copied). *)
Theorem C107_close_succeeds : forall h w v g ord, run h w -> good h -> view_on h v g -> snd (step ord w (OClose v)) = Ok VUnit.
Proof.
  intros h w v g ord R Gd On. pose proof (run_WI _ _ R Gd) as W.
  destruct (open_view _ _ _ _ W On) as (G & V & EG & EV & VR & GR). cbn [step]. unfold with_open, with_graph.
  rewrite EV, (vr_graph _ _ _ _ _ VR), EG. assert (S : smem v (g_views G) = true) by (apply smem_true, (gr_views _ _ _ _ GR); auto).
  rewrite S. reflexivity.
Qed.
Print Assumptions C107_close_succeeds.
(** The graph outlives its default view: copy() of the graph is refused, everything else works. *)
Theorem C107_graph_after_default_closed : forall h w g ord, run h w -> good h -> graph_known h g ->
  (exists G x, nth_error (w_graphs w) g = Some G /\ In (OClose (g_default G), Ok x) h) ->
  step ord w (OCopy g) = (w, Err ValueError) /\
  exists w' v, step ord w (OView g) = (w', Ok (VView v)).
Proof.
  intros h w g ord R Gd K (G & x & EG & I). pose proof (run_WI _ _ R Gd) as W.
  destruct (run_closed _ _ _ _ R I) as (V & EV & C). destruct (gr_sv _ _ _ _ (wi_graph _ _ W g G EG)) as (S & ES & SR).
  cbn [step]. unfold with_graph. rewrite EG. split.
  - unfold g_copy. rewrite EV, ES, C. reflexivity.
  - unfold copy_view. rewrite ES, (sr_graph _ _ _ SR), EG. eauto.
Qed.
Print Assumptions C107_graph_after_default_closed.
(** a graph with one dependency; its default view is closed, then used *)
Example C107_nonvacuous :
  results (calls [ONewGraph; OAdd 0 2 [1]; OReady 0; OClose 0; ONewGraph; OAdd 0 3 [2]; OView 0; OReady 0; ODone 0 [1]; OBool 0; OReset 0; OClose 0; OViewCopy 0; OCopy 0; OReady 4]) start =
  [Ok (VGraph 0 0); Ok VUnit; Ok (VNodes [1]); Ok VUnit; Ok (VGraph 1 2); Ok VUnit; Ok (VView 4); Err ValueError; Err ValueError;
   Err ValueError; Err ValueError; Err ValueError; Err ValueError; Err ValueError; Ok (VNodes [1])].
Proof. vm_compute. reflexivity. Qed.
