(** copy() until the next add/remove; done() that fails. *)
From Verif Require Import PyBase PyBaseProof PyDict PyDictProof GraphModel GraphSpec
  GraphProof1 GraphProof2 GraphProof3 GraphProof4 GraphProof5 GraphProof6 GraphProof7 GraphProof8.
From Coq Require Import Lia.

(** one call, as a function of the view alone *)
Definition vstep (N : nodes_t) (S V : view) (c : vcall) : view * result value :=
  match c with
  | CReset => (v_do_reset V S, Ok VUnit)
  | _ =>
      match v_conf V with
      | _ :: _ => (V, Err RuntimeError)
      | [] => match c with
              | CReady => (fst (v_take_ready V), Ok (VNodes (v_ready V)))
              | CDone ns => (fst (v_do_done N V ns), rmap (fun _ => VUnit) (snd (v_do_done N V ns)))
              | _ => (V, Ok (VBool (length (v_done V) <? length N)%nat))
              end
      end
  end.

Lemma for_each_set_graph {A} (f : view -> A -> view * result unit) x :
  (forall V a, f (set_graph V x) a = (set_graph (fst (f V a)) x, snd (f V a))) ->
  forall l V, for_each f (set_graph V x) l = (set_graph (fst (for_each f V l)) x, snd (for_each f V l)).
Proof.
  intros H. induction l as [|a t IH]; intros V; cbn; auto. rewrite H.
  destruct (f V a) as [V' [[]|]]; cbn; auto.
Qed.
Lemma mark_one_set_graph V s x : v_mark_one (set_graph V x) s = (set_graph (fst (v_mark_one V s)) x, snd (v_mark_one V s)).
Proof.
  unfold v_mark_one. cbn [v_yielded v_done v_pred set_graph]. destruct (smem s (v_yielded V) || smem s (v_done V)); auto.
  destruct (dget (v_pred V) s); auto. destruct (_ =? 0)%Z; auto.
Qed.
Lemma for_each_ext {A} (f f' : view -> A -> view * result unit) : (forall V a, f V a = f' V a) ->
  forall l V, for_each f V l = for_each f' V l.
Proof. intros H. induction l as [|a t IH]; intros V; cbn; auto. rewrite H. destruct (f' V a) as [? []]; auto. Qed.
Lemma do_done_set_graph N V ns x :
  v_do_done N (set_graph V x) ns = (set_graph (fst (v_do_done N V ns)) x, snd (v_do_done N V ns)).
Proof.
  unfold v_do_done, v_done_loop. rewrite for_each_set_graph.
  - destruct (for_each _ V ns) as [V' []]; auto.
  - intros V0 a. destruct (dmem a N); auto. cbn [negb v_yielded set_graph].
    destruct (smem a (v_yielded V0)); auto. cbn [negb]. unfold v_mark_done.
    apply for_each_set_graph. intros. apply mark_one_set_graph.
Qed.
Lemma vstep_set_graph N S V c x s :
  vstep N (set_graph S s) (set_graph V x) c = (set_graph (fst (vstep N S V c)) x, snd (vstep N S V c)).
Proof.
  destruct c; cbn; destruct (v_conf V) eqn:E; cbn; auto.
  rewrite do_done_set_graph. auto.
Qed.

(** view [v] of world [x] holds [V], on a graph with nodes [N] and stock view [S] *)
Definition holds (x : world) (v gi : nat) (N : nodes_t) (s : nat) (S V : view) : Prop :=
  nth_error (w_views x) v = Some V /\ v_graph V = Some gi /\
  (exists G, nth_error (w_graphs x) gi = Some G /\ g_nodes G = N /\ g_stock G = s) /\
  nth_error (w_views x) s = Some S /\ s <> v.

Lemma vstep_graph N S V c : v_graph (fst (vstep N S V c)) = v_graph V.
Proof.
  destruct c; cbn; destruct (v_conf V) eqn:E; cbn; auto.
  assert (F : forall {A} (f : view -> A -> view * result unit), (forall V a, v_graph (fst (f V a)) = v_graph V) ->
    forall l V, v_graph (fst (for_each f V l)) = v_graph V).
  { intros A f H. induction l as [|a t IH]; intros V0; cbn; auto. specialize (H V0 a).
    destruct (f V0 a) as [V' [[]|]]; cbn in *; auto. now rewrite IH. }
  unfold v_do_done, v_done_loop.
  assert (G : v_graph (fst (for_each (fun v n => if negb (dmem n N) then (v, Err ValueError)
    else if negb (smem n (v_yielded v)) then (v, Err ValueError) else v_mark_done v (succs_of N n)) V ns)) = v_graph V).
  { apply F. intros V0 a. destruct (dmem a N); auto. cbn [negb]. destruct (smem a (v_yielded V0)); auto. cbn [negb].
    apply F. intros V1 b. unfold v_mark_one. destruct (smem b (v_yielded V1) || smem b (v_done V1)); auto.
    destruct (dget (v_pred V1) b); auto. destruct (_ =? 0)%Z; auto. }
  destruct (for_each _ V ns) as [V' []]; cbn in *; auto.
Qed.

Lemma vstep_world ord x v gi N s S V c : set_order ord -> NI N -> acyclic (edgeP N) ->
  holds x v gi N s S V ->
  exists x', step ord x (on_view v c) = (x', snd (vstep N S V c)) /\
    nth_error (w_views x') v = Some (fst (vstep N S V c)) /\
    (forall i, i <> v -> nth_error (w_views x') i = nth_error (w_views x) i) /\
    (forall g G, nth_error (w_graphs x) g = Some G -> exists G', nth_error (w_graphs x') g = Some G' /\
       g_nodes G' = g_nodes G /\ g_stock G' = g_stock G).
Proof.
  intros HO HN HA (EV & EG & (G & EGr & EN & Es) & ES & Ne).
  assert (Lv := nth_error_some_lt _ _ _ EV). assert (Lb := proj2 (Nat.ltb_lt _ _) Lv).
  assert (PV : forall V', nth_error (upd (w_views x) v V') v = Some V' /\
     (forall i, i <> v -> nth_error (upd (w_views x) v V') i = nth_error (w_views x) i)).
  { intros V'. split; [now rewrite nth_error_upd, Nat.eqb_refl, Lb|]. intros i Hi. rewrite nth_error_upd.
    destruct (v =? i) eqn:Q; auto. apply Nat.eqb_eq in Q. congruence. }
  assert (Id : forall g G, nth_error (w_graphs x) g = Some G -> exists G', nth_error (w_graphs x) g = Some G' /\
       g_nodes G' = g_nodes G /\ g_stock G' = g_stock G) by eauto.
  destruct c; cbn [on_view step]; unfold with_open, with_graph; rewrite EV, EG, EGr; cbn [vstep]; unfold no_conflict.
  - destruct (v_conf V) as [|? ?]; [|exists x; auto].
    rewrite EN.
    assert (Ck : exists d, g_check ord N (g_dirty G) = (d, Ok tt)).
    { destruct (check_spec N ord (g_dirty G) HN HO (fun _ => HA)) as [[_ ->]|(Q & _)]; eauto. contradiction. }
    destruct Ck as (d & ->). eexists. split; [reflexivity|]. cbn [put_view put_graph w_views w_graphs].
    split; [apply PV|]. split; [apply PV|]. intros g G0 E0. rewrite nth_error_upd.
    destruct (gi =? g) eqn:Q; [|eauto]. apply Nat.eqb_eq in Q. subst g. rewrite EGr in E0. injection E0 as <-.
    pose proof (nth_error_some_lt _ _ _ EGr) as L. apply Nat.ltb_lt in L. rewrite L. eexists. split; [reflexivity|]. auto.
  - destruct (v_conf V) as [|? ?]; [|exists x; auto]. rewrite EN.
    destruct (v_do_done N V ns) as [V' r]. eexists. split; [reflexivity|]. cbn. split; [apply PV|]. split; [apply PV|auto].
  - destruct (v_conf V) as [|? ?]; [|exists x; auto]. rewrite EN. exists x. auto.
  - rewrite Es, ES. eexists. split; [reflexivity|]. cbn. split; [apply PV|]. split; [apply PV|auto].
Qed.

Fixpoint vresults (N : nodes_t) (S V : view) (l : list vcall) : list (result value) :=
  match l with [] => [] | c :: t => snd (vstep N S V c) :: vresults N S (fst (vstep N S V c)) t end.

Lemma results_one (ord_l : list ((list nat -> list nat) * vcall)) : forall x v gi N s S V, NI N -> acyclic (edgeP N) -> holds x v gi N s S V ->
  (forall ord c, In (ord, c) ord_l -> set_order ord) ->
  results (map (fun p => (fst p, on_view v (snd p))) ord_l) x = vresults N S V (map snd ord_l).
Proof.
  induction ord_l as [|[ord c] t IH]; intros x v gi N s S V HN HA H HO; cbn; auto.
  destruct (vstep_world ord x v gi N s S V c) as (x' & E & E1 & E2 & E3); auto.
  { eapply HO. cbn. eauto. }
  rewrite E. f_equal. apply IH with (gi := gi) (s := s); auto.
  - destruct H as (A & B & (G & C1 & C2 & C3) & D & F). split; auto. split; [now rewrite vstep_graph|].
    split; [|split; [rewrite E2; auto|auto]]. destruct (E3 _ _ C1) as (G' & ? & ? & ?). exists G'. intuition congruence.
  - intros. eapply HO. cbn. eauto.
Qed.

(** two views on different graphs, used alternately *)
Lemma results_two (l : list (bool * ((list nat -> list nat) * vcall))) : forall x v1 g1 s1 S1 V1 v2 g2 s2 S2 V2 N, NI N -> acyclic (edgeP N) ->
  holds x v1 g1 N s1 S1 V1 -> holds x v2 g2 N s2 S2 V2 -> v1 <> v2 -> s1 <> v2 -> s2 <> v1 ->
  (forall (b : bool) ord c, In (b, (ord, c)) l -> set_order ord) ->
  let rs := combine (map fst l) (results (map (fun p : bool * ((list nat -> list nat) * vcall) => (fst (snd p), on_view (if fst p then v1 else v2) (snd (snd p)))) l) x) in
  map snd (filter fst rs) = vresults N S1 V1 (map (fun p => snd (snd p)) (filter fst l)) /\
  map snd (filter (fun p : bool * result value => negb (fst p)) rs) = vresults N S2 V2 (map (fun p => snd (snd p)) (filter (fun p : (bool * ((list nat -> list nat) * vcall)) => negb (fst p)) l)).
Proof.
  induction l as [|[b [ord c]] t IH]; intros x v1 g1 s1 S1 V1 v2 g2 s2 S2 V2 N HN HA H1 H2 D1 D2 D3 HO rs; [cbn; auto|].
  assert (HO' : set_order ord) by (eapply HO; cbn; eauto).
  assert (HO'' : forall (b : bool) ord c, In (b, (ord, c)) t -> set_order ord) by (intros; eapply HO; cbn; eauto).
  subst rs. destruct b; cbn [map fst snd results].
  - destruct (vstep_world ord x v1 g1 N s1 S1 V1 c) as (x' & E & E1 & E2 & E3); auto. rewrite E.
    destruct (IH x' v1 g1 s1 S1 (fst (vstep N S1 V1 c)) v2 g2 s2 S2 V2 N) as [I1 I2]; auto.
    + destruct H1 as (A & B & (G & C1 & C2 & C3) & D & F). split; auto. split; [now rewrite vstep_graph|].
      split; [|split; [rewrite E2; auto|auto]]. destruct (E3 _ _ C1) as (G' & ? & ? & ?). exists G'. intuition congruence.
    + destruct H2 as (A & B & (G & C1 & C2 & C3) & D & F). split; [rewrite E2; auto|]. split; auto.
      split; [|split; [rewrite E2; auto|auto]]. destruct (E3 _ _ C1) as (G' & ? & ? & ?). exists G'. intuition congruence.
    + cbn [combine filter fst negb map snd vresults]. rewrite <- I1, <- I2. auto.
  - destruct (vstep_world ord x v2 g2 N s2 S2 V2 c) as (x' & E & E1 & E2 & E3); auto. rewrite E.
    destruct (IH x' v1 g1 s1 S1 V1 v2 g2 s2 S2 (fst (vstep N S2 V2 c)) N) as [I1 I2]; auto.
    + destruct H1 as (A & B & (G & C1 & C2 & C3) & D & F). split; [rewrite E2; auto|]. split; auto.
      split; [|split; [rewrite E2; auto|auto]]. destruct (E3 _ _ C1) as (G' & ? & ? & ?). exists G'. intuition congruence.
    + destruct H2 as (A & B & (G & C1 & C2 & C3) & D & F). split; auto. split; [now rewrite vstep_graph|].
      split; [|split; [rewrite E2; auto|auto]]. destruct (E3 _ _ C1) as (G' & ? & ? & ?). exists G'. intuition congruence.
    + cbn [combine filter fst negb map snd vresults]. rewrite <- I1, <- I2. auto.
Qed.

Lemma vresults_set_graph N s x l : forall S V, vresults N (set_graph S s) (set_graph V x) l = vresults N S V l.
Proof.
  induction l as [|c t IH]; intros S V; cbn [vresults]; auto. rewrite vstep_set_graph. cbn [fst snd]. now rewrite IH.
Qed.

Theorem copy_replays h w g G ord w' c d' : run h w -> good h -> nth_error (w_graphs w) g = Some G ->
  view_on h (g_default G) g -> acyclic (edge_in h g) ->
  step ord w (OCopy g) = (w', Ok (VGraph c d')) ->
  forall l : list (bool * ((list nat -> list nat) * vcall)), (forall b ord c, In (b, (ord, c)) l -> set_order ord) ->
  let both := results (map (fun p : bool * ((list nat -> list nat) * vcall) => (fst (snd p), on_view (if fst p then g_default G else d') (snd (snd p)))) l) w' in
  let alone b := results (map (fun p : bool * ((list nat -> list nat) * vcall) => (fst (snd p), on_view (g_default G) (snd (snd p))))
                              (filter (fun p : (bool * ((list nat -> list nat) * vcall)) => eqb (fst p) b) l)) w in
  forall b, map snd (filter (fun p : bool * result value => eqb (fst p) b) (combine (map fst l) both)) = alone b.
Proof.
  intros R Gd EG On A E l HO both alone b. pose proof (run_WI _ _ R Gd) as W.
  pose proof (wi_graph _ _ W _ _ EG) as GR.
  destruct (open_view _ _ _ _ W On) as (G0 & V & EG0 & EV & VR & _). rewrite EG in EG0. injection EG0 as <-.
  destruct (gr_sv _ _ _ _ GR) as (S & ES & SR).
  assert (Ns : g_stock G <> g_default G).
  { intros Q. apply (gr_stock _ _ _ _ GR). rewrite Q. eapply on_known; eauto. }
  assert (A' : acyclic (edgeP (g_nodes G))) by (apply (edge_acyclic_iff _ _ (gr_edges _ _ _ _ GR)); auto).
  assert (HN := gr_ni _ _ _ _ GR).
  assert (H0 : holds w (g_default G) g (g_nodes G) (g_stock G) S V).
  { split; auto. split; [apply VR|]. split; [eauto|]. auto. }
  pose proof (nth_error_some_lt _ _ _ EG) as Lg. pose proof (nth_error_some_lt _ _ _ EV) as Lv.
  pose proof (nth_error_some_lt _ _ _ ES) as Ls.
  cbn [step] in E. unfold with_graph in E. rewrite EG in E. unfold g_copy in E. rewrite EV, ES, (vr_graph _ _ _ _ _ VR) in E.
  injection E as <- <- <-. 
  set (nv := length (w_views w)) in *. set (ng := length (w_graphs w)) in *.
  assert (Lw : length (w_views w ++ [v_fresh ng; v_fresh ng]) = nv + 2) by (rewrite app_length; reflexivity).
  match goal with both := results _ ?x |- _ => set (w' := x) in both end.
  assert (Old : forall i, i < nv -> nth_error (w_views w') i = nth_error (w_views w) i).
  { intros i Hi. unfold w'. cbn [w_views new_graph]. rewrite !nth_error_app1; auto. rewrite app_length. unfold nv in Hi. lia. }
  assert (H1 : holds w' (g_default G) g (g_nodes G) (g_stock G) S V).
  { split; [rewrite Old; auto|]. split; [apply VR|]. split; [|split; [rewrite Old; auto|auto]].
    unfold w'. cbn [w_graphs new_graph]. eexists. rewrite !nth_error_upd, upd_length, app_length. cbn [length].
    fold ng. assert (Q : (ng =? g) = false) by (apply Nat.eqb_neq; unfold ng; lia). rewrite Q, Nat.eqb_refl.
    assert (Q2 : (g <? ng + 1) = true) by (apply Nat.ltb_lt; unfold ng; lia). rewrite Q2. split; [reflexivity|]. auto. }
  assert (H2 : holds w' (nv + 2) ng (g_nodes G) (Datatypes.S (nv + 2)) (set_graph S (Some ng)) (set_graph V (Some ng))).
  { split.
    { unfold w'. cbn [w_views]. rewrite nth_error_app2 by (rewrite ?Lw; lia). rewrite Lw, Nat.sub_diag. reflexivity. }
    split; [reflexivity|]. split; [|split; [|lia]].
    - unfold w'. cbn [w_graphs new_graph]. eexists. rewrite !nth_error_upd, upd_length, app_length. cbn [length].
      fold ng. rewrite Nat.eqb_refl. assert (Q2 : (ng <? ng + 1) = true) by (apply Nat.ltb_lt; lia). rewrite Q2.
      split; [reflexivity|]. cbn [g_nodes g_stock]. split; auto.
    - unfold w'. cbn [w_views]. rewrite nth_error_app2 by (rewrite ?Lw; lia). rewrite Lw.
      replace (Datatypes.S (nv + 2) - (nv + 2)) with 1 by lia. reflexivity. }
  destruct (results_two l w' _ _ _ _ _ _ _ _ _ _ (g_nodes G) HN A' H1 H2) as [I1 I2]; auto; try (unfold nv; lia).
  unfold both. rewrite Lw. 
  assert (Al : forall b, alone b = vresults (g_nodes G) S V (map (fun p => snd (snd p)) (filter (fun p : (bool * ((list nat -> list nat) * vcall)) => eqb (fst p) b) l))).
  { intros b0. unfold alone. rewrite <- (map_map snd snd). rewrite <- (map_map snd (fun q => (fst q, on_view (g_default G) (snd q)))).
    eapply results_one; eauto. intros o c I. apply in_map_iff in I. destruct I as ([b1 [o1 c1]] & Q & I).
    cbn in Q. injection Q as -> ->. apply filter_In in I. eapply HO. apply I. }
  rewrite Al. clear Al.
  rewrite vresults_set_graph in I2.
  assert (F : forall {B} (q : list (bool * B)) b, filter (fun p : bool * B => eqb (fst p) b) q =
     if b then filter fst q else filter (fun p : bool * B => negb (fst p)) q).
  { intros B q [|]; apply filter_ext; intros [[] ?]; auto. }
  rewrite !F. destruct b; assumption.
Qed.

(** done() that fails *)
Lemma mark_nil V : v_mark_done V [] = (V, Ok tt). Proof. reflexivity. Qed.
Theorem done_no_successors h w v g ord ns x e : run h w -> good h -> view_on h v g ->
  (forall n m, In n ns -> ~ edge_in h g n m) ->
  step ord w (ODone v ns) = (x, Err e) -> x = w.
Proof.
  intros R Gd On Hn E. pose proof (run_WI _ _ R Gd) as W.
  destruct (open_view _ _ _ _ W On) as (G & V & EG & EV & VR & GR).
  cbn [step] in E. unfold with_open, with_graph in E. rewrite EV, (vr_graph _ _ _ _ _ VR), EG in E.
  unfold no_conflict in E. destruct (v_conf V); [|now injection E].
  assert (Q : forall l, (forall n, In n l -> In n ns) ->
    fst (v_done_loop (g_nodes G) V l) = V).
  { unfold v_done_loop. induction l as [|n t IH]; intros Hl; cbn; auto.
    destruct (dmem n (g_nodes G)); auto. cbn [negb]. destruct (smem n (v_yielded V)); auto. cbn [negb].
    assert (S0 : succs_of (g_nodes G) n = []).
    { destruct (succs_of (g_nodes G) n) as [|m s] eqn:F; auto. exfalso.
      apply (Hn n m); [apply Hl; cbn; auto|]. apply (gr_edges _ _ _ _ GR). unfold edgeP.
      apply edge_succ. rewrite F. cbn. auto. }
    rewrite S0, mark_nil. apply IH. intros y Hy. apply Hl. cbn. auto. }
  specialize (Q ns (fun n H => H)). unfold v_do_done in E. destruct (v_done_loop (g_nodes G) V ns) as [V' [|]]; cbn in *; subst.
  - discriminate.
  - injection E as <- _. unfold put_view. rewrite upd_self; auto. now destruct w.
Qed.
Theorem done_first_bad h w v g ord n ns x r : run h w -> good h -> view_on h v g ->
  (forall d m, ~ conflict h v d m) -> ~ (handed h v n /\ ~ is_done h v n) ->
  step ord w (ODone v (n :: ns)) = (x, r) -> x = w /\ r = Err ValueError.
Proof.
  intros R Gd On NC Hn E. pose proof (run_WI _ _ R Gd) as W.
  destruct (open_view _ _ _ _ W On) as (G & V & EG & EV & VR & GR).
  cbn [step] in E. unfold with_open, with_graph in E. rewrite EV, (vr_graph _ _ _ _ _ VR), EG in E.
  unfold no_conflict in E. destruct (conf_dec _ _ _ _ _ VR) as [[C _]|[_ (d & m & C)]]; [|now apply NC in C].
  rewrite C in E. unfold v_do_done, v_done_loop in E. cbn [for_each] in E.
  rewrite <- (vr_y _ _ _ _ _ VR) in Hn. apply smem_false in Hn. rewrite Hn in E. cbn [negb] in E.
  destruct (dmem n (g_nodes G)); cbn in E; injection E as <- <-; (split; [|auto]); unfold put_view;
    rewrite upd_self; auto; now destruct w.
Qed.
