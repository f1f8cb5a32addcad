(** C20: what graphs contain, for every history of calls at all: copies, failing calls, done() with wrong arguments. *)
From Verif Require Import PyBase PyBaseProof PyDict PyDictProof GraphModel GraphSpec GraphSpec2 GraphProof1 GraphProof2 GraphProof3 GraphProof4 GraphProof5 GraphProof6 GraphProof7 GraphProof8 GraphProof9 GraphProps.
From Coq Require Import Lia.

Record GI (h : history) (g : nat) (G : graph) : Prop := mkGI {
  gi_ni : NI (g_nodes G);
  gi_nodes : forall n, In n (dkeys (g_nodes G)) <-> has_node h g n;
  gi_edges : forall d n, edgeP (g_nodes G) d n <-> has_edge h g d n;
  gi_bare : bare_copy h g -> g_dirty G = false;
  gi_clean : g_dirty G = false -> bare_copy h g \/ acyclic (edgeP (g_nodes G))
}.
Record AllGI (h : history) (w : world) : Prop := mkAll {
  all_gi : forall g G, nth_error (w_graphs w) g = Some G -> GI h g G;
  all_known : forall g, graph_known h g <-> g < length (w_graphs w)
}.
(** events that do not concern what a graph contains *)
Definition neutral (e : op * result value) : bool :=
  match e with (ONewGraph, _) | (OCopy _, _) | (OAdd _ _ _, _) | (ORemove _ _, _) => false | _ => true end.
Lemma neutral_node e h g n : neutral e = true -> has_node (e :: h) g n <-> has_node h g n.
Proof. destruct e as [[] r]; cbn; intros; try discriminate; tauto. Qed.
Lemma neutral_edge e h g d n : neutral e = true -> has_edge (e :: h) g d n <-> has_edge h g d n.
Proof. destruct e as [[] r]; cbn; intros; try discriminate; tauto. Qed.
Lemma neutral_bare e h g : neutral e = true -> bare_copy (e :: h) g <-> bare_copy h g.
Proof. destruct e as [[] r]; cbn; intros; try discriminate; tauto. Qed.

(** the graphs of two worlds are the same up to the views, and a dirty flag that may have been cleared for a good reason *)
Definition cleaned (G G' : graph) : Prop :=
  g_nodes G' = g_nodes G /\ (g_dirty G = false -> g_dirty G' = false) /\ (g_dirty G' = false -> g_dirty G = false \/ acyclic (edgeP (g_nodes G))).
Definition graphs_kept (w w' : world) : Prop :=
  length (w_graphs w') = length (w_graphs w) /\
  forall g G', nth_error (w_graphs w') g = Some G' -> exists G, nth_error (w_graphs w) g = Some G /\ (NI (g_nodes G) -> cleaned G G').
Lemma cleaned_refl G : cleaned G G.
Proof. unfold cleaned. auto. Qed.
Lemma kept_refl w w' : w_graphs w' = w_graphs w -> graphs_kept w w'.
Proof. intros E. unfold graphs_kept. rewrite E. split; auto. intros g G HG. exists G. split; auto. intros _. apply cleaned_refl. Qed.
Lemma kept_upd w w' g G G' : nth_error (w_graphs w) g = Some G -> w_graphs w' = upd (w_graphs w) g G' -> (NI (g_nodes G) -> cleaned G G') -> graphs_kept w w'.
Proof.
  intros EG E C. unfold graphs_kept. rewrite E. split; [apply upd_length|]. intros i X HX.
  rewrite nth_error_upd in HX. destruct (g =? i) eqn:Ei.
  - apply Nat.eqb_eq in Ei. subst i. rewrite (proj2 (Nat.ltb_lt _ _) (nth_error_some_lt _ _ _ EG)) in HX. injection HX as <-. eauto.
  - exists X. split; auto. intros _. apply cleaned_refl.
Qed.
Lemma AllGI_kept h w w' e : AllGI h w -> neutral e = true -> new_obj (snd e) = false \/ (exists v, snd e = Ok (VView v)) -> graphs_kept w w' -> AllGI (e :: h) w'.
Proof.
  intros [A K] N NO [L Q]. constructor.
  - intros g G' HG. destruct (Q g G' HG) as (G & EG & C). destruct (A g G EG) as [B1 B2 B3 B4 B5].
    destruct (C B1) as (C1 & C2 & C3). constructor; rewrite ?C1; auto.
    + intros n. rewrite B2. symmetry. now apply neutral_node.
    + intros d n. rewrite B3. symmetry. now apply neutral_edge.
    + rewrite neutral_bare by auto. auto.
    + rewrite neutral_bare by auto. intros D. destruct (C3 D) as [D'|D']; auto.
  - intros g. rewrite L, <- K. destruct e as [o r]. cbn in NO. destruct NO as [NO|(v & ->)]; [now apply known_graph_same|].
    unfold graph_known. cbn. split; intros (o' & d & H); exists o', d; [destruct H as [[= ]|H]; auto|auto].
Qed.
Lemma cycle_flag ord N d : NI N -> set_order ord -> let d' := fst (g_cycle ord N d) in (d = false -> d' = false) /\ (d' = false -> d = false \/ acyclic (edgeP N)).
Proof.
  intros HN HO. destruct d; [|cbn; auto]. destruct (cycle_spec N ord HN HO) as [[A E]|(c & A & E)]; rewrite E; cbn; split; auto; discriminate.
Qed.
Lemma check_flag ord N d : NI N -> set_order ord -> let d' := fst (g_check ord N d) in (d = false -> d' = false) /\ (d' = false -> d = false \/ acyclic (edgeP N)).
Proof.
  intros HN HO. unfold g_check. destruct d; [|cbn; auto]. pose proof (cycle_flag ord N true HN HO) as Q. cbn zeta in Q.
  destruct (g_cycle ord N true) as [d [[[|]|]|]]; exact Q.
Qed.
Lemma cleaned_dirty G d : (g_dirty G = false -> d = false) -> (d = false -> g_dirty G = false \/ acyclic (edgeP (g_nodes G))) -> cleaned G (set_dirty G d).
Proof. unfold cleaned. cbn. auto. Qed.
Lemma cleaned_views G l : cleaned G (set_views G l).
Proof. unfold cleaned. cbn. auto. Qed.
Lemma put_view_graphs w i v : w_graphs (put_view w i v) = w_graphs w.
Proof. reflexivity. Qed.

(** every call but those that make, copy or change graphs *)
Lemma kept_step w ord o w' r : set_order ord -> neutral (o, r) = true -> step ord w o = (w', r) ->
  graphs_kept w w' /\ (new_obj r = false \/ exists v, r = Ok (VView v)).
Proof.
  intros HO N E. destruct o; try discriminate N; cbn [step] in E; unfold with_open, with_graph, copy_view in E;
  repeat match type of E with
  | (match nth_error ?a ?b with _ => _ end) = _ => destruct (nth_error a b) as [?|] eqn:?
  | (match v_graph ?v with _ => _ end) = _ => destruct (v_graph v) as [?|] eqn:?
  end; try (injection E as <- <-; split; [now apply kept_refl|cbn; eauto]; fail).
  - injection E as <- <-. split; [|eauto]. eapply kept_upd; [eassumption|reflexivity|]. intros _. apply cleaned_views.
  - destruct (g_cycle ord (g_nodes g0) (g_dirty g0)) as [d x] eqn:F. injection E as <- <-. split.
    + eapply kept_upd; [eassumption|reflexivity|]. intros I. pose proof (cycle_flag ord _ (g_dirty g0) I HO) as Q. rewrite F in Q. apply cleaned_dirty; apply Q.
    + left. destruct x; auto.
  - destruct (g_check ord (g_nodes g0) (g_dirty g0)) as [d x] eqn:F. injection E as <- <-. split.
    + eapply kept_upd; [eassumption|reflexivity|]. intros I. pose proof (check_flag ord _ (g_dirty g0) I HO) as Q. rewrite F in Q. apply cleaned_dirty; apply Q.
    + left. destruct x; auto.
  - unfold no_conflict in E. destruct (v_conf v0); [|injection E as <- <-; split; [now apply kept_refl|auto]].
    destruct (g_check ord (g_nodes g) (g_dirty g)) as [d x] eqn:F.
    assert (Q : graphs_kept w (put_graph w n (set_dirty g d))).
    { eapply kept_upd; [eassumption|reflexivity|]. intros I. pose proof (check_flag ord _ (g_dirty g) I HO) as Q. rewrite F in Q. apply cleaned_dirty; apply Q. }
    destruct x; [destruct (v_take_ready v0)|]; injection E as <- <-; auto.
  - unfold no_conflict in E. destruct (v_conf v0); [|injection E as <- <-; split; [now apply kept_refl|auto]].
    destruct (v_do_done (g_nodes g) v0 ns) as [v' x]. injection E as <- <-. split; [now apply kept_refl|]. left. destruct x; auto.
  - unfold no_conflict in E. destruct (v_conf v0); injection E as <- <-; (split; [now apply kept_refl|auto]).
  - destruct (smem v (g_views g)); injection E as <- <-; (split; [|auto]); [|now apply kept_refl].
    eapply kept_upd; [eassumption|reflexivity|]. intros _. apply cleaned_views.
  - injection E as <- <-. split; [|eauto]. eapply kept_upd; [eassumption|reflexivity|]. intros _. apply cleaned_views.
Qed.

Lemma known_new o r h c d g : r = Ok (VGraph c d) -> graph_known ((o, r) :: h) g <-> graph_known h g \/ g = c.
Proof.
  intros ->. unfold graph_known. cbn. split.
  - intros (o' & d' & [[= <- <- <-]|H]); eauto.
  - intros [(o' & d' & H)| ->]; eauto 6.
Qed.
Lemma has_edge_dec h g G d n : GI h g G -> has_edge h g d n \/ ~ has_edge h g d n.
Proof. intros I. rewrite <- (gi_edges _ _ _ I). unfold edgeP. destruct (edge (g_nodes G) d n); auto. Qed.
Lemma acyclic_mono (e e' : nat -> nat -> Prop) : (forall d n, e' d n -> e d n) -> acyclic e -> acyclic e'.
Proof. intros Q A n R. apply (A n). clear A. revert R. generalize n at 2 4. intros m R. induction R; [constructor; auto|eapply reachesS; eauto]. Qed.

Lemma notify_length f vs : forall store, length (fst (notify f store vs)) = length store.
Proof.
  induction vs as [|v vs IH]; intros store; [reflexivity|]. unfold notify in *. cbn [for_each].
  destruct (nth_error store v) as [V|]; [|apply IH]. destruct (f V) as [V' [|]]; [rewrite IH|]; apply upd_length.
Qed.
Lemma g_add_graphs w gi g n ds : w_graphs (fst (g_add w gi g n ds)) =
  upd (w_graphs w) gi (set_dirty (set_nodes g (a_nodes (add_nodes_part (g_nodes g) (g_dirty g) n ds))) (a_dirty (add_nodes_part (g_nodes g) (g_dirty g) n ds))).
Proof.
  unfold g_add. cbn zeta. match goal with |- context [match ?m with (_, _) => match _ with (_, _) => _ end end] => destruct m as [vs r] end.
  destruct r as [u|e]; [match goal with |- context [match ?m with (_, _) => _ end] => destruct m as [vs' r'] end|]; reflexivity.
Qed.
Lemma GI_other (o : op) (r : result value) h g G :
  (forall n, has_node ((o, r) :: h) g n <-> has_node h g n) -> (forall d n, has_edge ((o, r) :: h) g d n <-> has_edge h g d n) ->
  (bare_copy ((o, r) :: h) g <-> bare_copy h g) -> GI h g G -> GI ((o, r) :: h) g G.
Proof.
  intros Hn He Hb [B1 B2 B3 B4 B5]. constructor; auto.
  - intros n. rewrite Hn. auto.
  - intros d n. rewrite He. auto.
  - rewrite Hb. auto.
  - rewrite Hb. auto.
Qed.
Lemma AllGI_add h w ord g n ds w' r : AllGI h w -> step ord w (OAdd g n ds) = (w', r) -> AllGI ((OAdd g n ds, r) :: h) w'.
Proof.
  intros [A K] E. cbn [step] in E. unfold with_graph in E.
  destruct (nth_error (w_graphs w) g) as [G|] eqn:EG.
  - destruct (g_add w g G n ds) as [w1 x] eqn:F. injection E as <- <-.
    assert (W := g_add_graphs w g G n ds). rewrite F in W. cbn [fst] in W.
    assert (NO : new_obj (rmap (fun _ : unit => VUnit) x) = false) by (destruct x; auto).
    remember (add_nodes_part (g_nodes G) (g_dirty G) n ds) as a eqn:Ea0.
    constructor.
    + intros i X HX. rewrite W, nth_error_upd in HX. destruct (g =? i) eqn:Ei.
      * apply Nat.eqb_eq in Ei. subst i. rewrite (proj2 (Nat.ltb_lt _ _) (nth_error_some_lt _ _ _ EG)) in HX. injection HX as <-.
        destruct (A g G EG) as [B1 B2 B3 B4 B5].
        destruct (add_nodes_part_spec (g_nodes G) (g_dirty G) n ds B1) as (A1 & A2 & A3 & A4 & A5 & A6 & A7).
        rewrite <- Ea0 in A1, A2, A3, A4, A5, A6, A7.
        constructor; cbn [g_nodes g_dirty set_dirty set_nodes]; auto.
        -- intros m. rewrite A3, B2. cbn. tauto.
        -- intros d m. unfold edgeP. rewrite A4. fold (edgeP (g_nodes G) d m). rewrite B3. cbn. tauto.
        -- cbn. intros [HB HN]. rewrite A7, (B4 HB). cbn. destruct (a_succ a) as [|d t] eqn:Ea; auto. exfalso. apply HN. split; auto.
           exists d. destruct (proj1 (A6 d) (or_introl eq_refl)) as [Hd He]. split; auto. rewrite <- B3. unfold edgeP. rewrite He. discriminate.
        -- rewrite A7. intros D. apply orb_false_iff in D. destruct D as [D1 D2].
           assert (Q : forall d m, edgeP (a_nodes a) d m -> edgeP (g_nodes G) d m).
           { intros d m. unfold edgeP. rewrite A4. intros [?|[-> Hd]]; auto.
             destruct (edge (g_nodes G) d n) eqn:Y; auto. exfalso.
             assert (I : In d (a_succ a)) by (apply A6; auto). destruct (a_succ a); [destruct I|discriminate]. }
           destruct (B5 D1) as [HB|HA]; [left|right; eapply acyclic_mono; eauto].
           cbn. split; auto. intros (_ & d & Hd & He). apply He. rewrite <- B3. apply Q. unfold edgeP. apply A4. auto.
      * apply Nat.eqb_neq in Ei. apply GI_other; [| | |auto]; cbn; tauto.
    + intros i. rewrite W, upd_length, <- K. now apply known_graph_same.
  - injection E as <- <-. constructor.
    + intros i X HX. assert (g <> i) by congruence. apply GI_other; [| | |auto]; cbn; tauto.
    + intros i. rewrite <- K. now apply known_graph_same.
Qed.
Lemma AllGI_remove h w ord g n w' r : AllGI h w -> step ord w (ORemove g n) = (w', r) -> AllGI ((ORemove g n, r) :: h) w'.
Proof.
  intros [A K] E. cbn [step] in E. unfold with_graph in E.
  destruct (nth_error (w_graphs w) g) as [G|] eqn:EG.
  - unfold g_remove in E. destruct (dmem n (g_nodes G)) eqn:D; cbn [negb] in E.
    + destruct (remove_nodes_part (g_nodes G) n) as [N succs] eqn:F. destruct (notify _ (w_views w) (g_views G)) as [vs x]. injection E as <- <-.
      assert (NO : new_obj (rmap (fun _ : unit => VUnit) x) = false) by (destruct x; auto).
      constructor; cbn [w_graphs].
      * intros i X HX. rewrite nth_error_upd in HX. destruct (g =? i) eqn:Ei.
        -- apply Nat.eqb_eq in Ei. subst i. rewrite (proj2 (Nat.ltb_lt _ _) (nth_error_some_lt _ _ _ EG)) in HX. injection HX as <-.
           destruct (A g G EG) as [B1 B2 B3 B4 B5].
           destruct (remove_nodes_part_spec (g_nodes G) n N succs B1 (proj1 (dmem_true _ _) D) F) as (A1 & A2 & A3 & A4).
           constructor; cbn [g_nodes g_dirty set_nodes]; auto.
           ++ intros m. rewrite A2, in_lremove by apply B1. rewrite B2. cbn. intuition.
           ++ intros d m. unfold edgeP. rewrite A3, !andb_true_iff, !negb_true_iff, !Nat.eqb_neq. fold (edgeP (g_nodes G) d m). rewrite B3. cbn. intuition.
           ++ intros Q. destruct (B5 Q) as [HB|HA]; [left; auto|right]. eapply acyclic_mono; [|exact HA]. intros d m. unfold edgeP. rewrite A3, !andb_true_iff. tauto.
        -- apply Nat.eqb_neq in Ei. apply GI_other; [| | |auto]; cbn; tauto.
      * intros i. rewrite upd_length, <- K. now apply known_graph_same.
    + injection E as <- <-. constructor.
      * intros i X HX. apply GI_other; [| | |auto]; cbn; try tauto.
        -- intros m. split; [tauto|]. intros Hm. split; auto. intros [<- ->]. assert (X = G) by congruence. subst X.
           apply (gi_nodes _ _ _ (A g G EG)) in Hm. apply dmem_true in Hm. congruence.
        -- intros d m. split; [tauto|]. intros Hm. split; auto. intros [<- Hor]. assert (X = G) by congruence. subst X.
           destruct (A g G EG) as [B1 B2 B3 B4 B5]. apply B3 in Hm.
           assert (In n (dkeys (g_nodes G))); [|apply dmem_true in H; congruence].
           destruct Hor as [-> | ->]; [eapply edge_key; exact Hm|eapply ni_closed; [apply B1|exact Hm]].
      * intros i. rewrite <- K. now apply known_graph_same.
  - injection E as <- <-. constructor.
    + intros i X HX. assert (g <> i) by congruence. apply GI_other; [| | |auto]; cbn; tauto.
    + intros i. rewrite <- K. now apply known_graph_same.
Qed.
Lemma nth_app_new {A} (l : list A) x i y : nth_error (l ++ [x]) i = Some y -> (i <> length l /\ nth_error l i = Some y) \/ (i = length l /\ y = x).
Proof.
  intros H. destruct (Nat.lt_trichotomy i (length l)) as [L|[->|L]].
  - rewrite nth_error_app1 in H by auto. left. split; auto. lia.
  - right. rewrite nth_error_app2, Nat.sub_diag in H by auto. injection H as <-. auto.
  - exfalso. assert (i < length (l ++ [x])) by (eapply nth_error_some_lt; eauto). rewrite app_length in *. cbn in *. lia.
Qed.
Lemma AllGI_new h w : AllGI h w -> AllGI ((ONewGraph, Ok (VGraph (length (w_graphs w)) (length (w_views w)))) :: h) (new_graph w).
Proof.
  intros [A K]. constructor.
  - intros i X HX. cbn [new_graph w_graphs] in HX. apply nth_app_new in HX. destruct HX as [[Ne HX]|[-> ->]].
    + apply GI_other; [| | |auto]; cbn; tauto.
    + constructor; cbn; auto; try tauto.
      * apply NI_nil.
      * intros d n. unfold edgeP, edge. cbn. split; [discriminate|tauto].
      * intros _. right. intros n R. remember n as m in R at 2. clear Heqm. induction R; auto. discriminate.
  - intros i. rewrite (known_new _ _ _ _ _ i eq_refl), K. cbn [new_graph w_graphs]. rewrite app_length. cbn. lia.
Qed.
Lemma AllGI_copy h w ord g w' r : AllGI h w -> step ord w (OCopy g) = (w', r) -> AllGI ((OCopy g, r) :: h) w'.
Proof.
  intros [A K] E. cbn [step] in E. unfold with_graph in E.
  assert (SAME : forall e, AllGI ((OCopy g, Err e) :: h) w).
  { intros e. constructor; [intros i X HX; apply GI_other; [| | |auto]; cbn; tauto|]. intros i. rewrite <- K. now apply known_graph_same. }
  destruct (nth_error (w_graphs w) g) as [G|] eqn:EG; [|injection E as <- <-; auto]. unfold g_copy in E.
  destruct (nth_error (w_views w) (g_default G)) as [d|]; [|injection E as <- <-; auto].
  destruct (nth_error (w_views w) (g_stock G)) as [s|]; [|injection E as <- <-; auto].
  destruct (v_graph d); [|injection E as <- <-; auto]. injection E as <- <-.
  assert (LT := nth_error_some_lt _ _ _ EG).
  constructor.
  - intros i X HX. cbn [w_graphs] in HX. rewrite nth_error_upd in HX. destruct (length (w_graphs w) =? i) eqn:Ei.
    + apply Nat.eqb_eq in Ei. subst i. destruct (_ <? _); [|discriminate]. injection HX as <-.
      destruct (A g G EG) as [B1 B2 B3 B4 B5]. constructor; cbn [g_nodes g_dirty]; auto.
      * intros n1. rewrite B2. cbn. tauto.
      * intros d1 n2. rewrite B3. cbn. tauto.
      * intros _. left. cbn. auto.
    + apply Nat.eqb_neq in Ei. rewrite nth_error_upd in HX.
      assert (Q : forall Y, GI h i Y -> GI ((OCopy g, Ok (VGraph (length (w_graphs w)) (length (w_views (new_graph w))))) :: h) i Y)
        by (intros Y HY; apply GI_other; [| | |auto]; cbn; intuition congruence).
      destruct (g =? i) eqn:Eg.
      * apply Nat.eqb_eq in Eg. subst i. destruct (_ <? _); [|discriminate]. injection HX as <-. apply Q.
        destruct (A g G EG) as [B1 B2 B3 B4 B5]. constructor; auto.
      * cbn [new_graph w_graphs] in HX. apply nth_app_new in HX. destruct HX as [[Ne HX]|[-> ->]]; [|congruence]. auto.
  - intros i. rewrite (known_new _ _ _ _ _ i eq_refl), K. cbn [w_graphs]. rewrite !upd_length. cbn [new_graph w_graphs]. rewrite app_length. cbn. lia.
Qed.
Theorem run_AllGI h w : GraphSpec.run h w -> AllGI h w.
Proof.
  induction 1 as [|h w ord o w' r R IH HO E].
  - constructor; cbn.
    + intros [|] G H; discriminate.
    + intros g. split; [intros (o & d & [])|lia].
  - destruct (neutral (o, r)) eqn:N.
    + destruct (kept_step w ord o w' r HO N E) as [Kp NO]. eapply AllGI_kept; eauto.
    + destruct o; try discriminate N.
      * cbn in E. injection E as <- <-. now apply AllGI_new.
      * eapply AllGI_add; eauto.
      * eapply AllGI_remove; eauto.
      * eapply AllGI_copy; eauto.
Qed.

Definition only_KeyError {A} (r : result A) : Prop := match r with Err e => e = KeyError | Ok _ => True end.
Lemma for_each_KeyError {S A} (f : S -> A -> S * result unit) : (forall s a, only_KeyError (snd (f s a))) -> forall l s, only_KeyError (snd (for_each f s l)).
Proof. intros H l. induction l as [|a l IH]; intros s; [exact I|]. cbn [for_each]. specialize (H s a). destruct (f s a) as [s' [|]]; auto. Qed.
Lemma mark_done_KeyError V l : only_KeyError (snd (v_mark_done V l)).
Proof. apply for_each_KeyError. intros s a. unfold v_mark_one. destruct (_ || _); [exact I|]. destruct (dget _ _); [|reflexivity]. destruct (_ =? 0)%Z; exact I. Qed.
Lemma remove_node_KeyError V n l : only_KeyError (snd (v_remove_node V n l)).
Proof. unfold v_remove_node. destruct (smem _ _); [exact I|]. cbv zeta. destruct (dmem _ _); [apply mark_done_KeyError|reflexivity]. Qed.

Lemma notify_KeyError f : (forall V, only_KeyError (snd (f V))) -> forall vs store, only_KeyError (snd (notify f store vs)).
Proof.
  intros H vs store. unfold notify. apply for_each_KeyError. intros s i. destruct (nth_error s i) as [V|]; [|exact I]. specialize (H V).
  destruct (f V). exact H.
Qed.

(** C20 for every history of calls, whatever was copied, closed, or raised: what a graph contains is what was added to it and not
    removed since; a copy starts with what the original had, and from then on neither sees what is added to or removed from the other.
    (Only views are mixed up: C20_copy_cannot_be_modified_refuted.)  Observed through len() and remove(). *)
Theorem C20_contents_exact : forall h w g, GraphSpec.run h w -> graph_known h g ->
  (forall ord, exists l, NoDup l /\ (forall n, In n l <-> has_node h g n) /\ step ord w (OLen g) = (w, Ok (VInt (Z.of_nat (length l))))) /\
  (forall ord n, snd (step ord w (ORemove g n)) = Err ValueError <-> ~ has_node h g n) /\
  (forall d n, has_edge h g d n -> has_node h g d /\ has_node h g n).
Proof.
  intros h w g R Kn. destruct (run_AllGI h w R) as [A K]. apply K in Kn. apply nth_error_Some in Kn.
  destruct (nth_error (w_graphs w) g) as [G|] eqn:EG; [clear Kn|congruence]. destruct (A g G EG) as [B1 B2 B3 B4 B5].
  split; [|split].
  - intros ord. exists (dkeys (g_nodes G)). split; [apply B1|]. split; [exact B2|]. cbn. unfold with_graph. rewrite EG. unfold dkeys. now rewrite map_length.
  - intros ord n. rewrite <- B2, <- dmem_true. cbn. unfold with_graph. rewrite EG. unfold g_remove. destruct (dmem n (g_nodes G)); cbn [negb].
    + split; [|intros H; now elim H]. destruct (remove_nodes_part (g_nodes G) n) as [N succs].
      assert (Q := notify_KeyError (fun v => v_remove_node v n succs) (fun V => remove_node_KeyError V n succs) (g_views G) (w_views w)).
      destruct (notify _ (w_views w) (g_views G)) as [vs [x|e]]; cbn in *; [discriminate|]. subst e. discriminate.
    + split; [discriminate|reflexivity].
  - intros d n He. apply B3 in He. rewrite <- !B2. split; [eapply edge_key; exact He|eapply ni_closed; [apply B1|exact He]].
Qed.
(** ... and through cycle() and check_for_cycles(): right for every graph except a copy to which no new dependency was added since;
    that one is said to have no cycle. *)
Theorem C20_cycle_exact : forall h w g ord, GraphSpec.run h w -> graph_known h g -> set_order ord ->
  (bare_copy h g -> snd (step ord w (OCycle g)) = Ok (VCycle None) /\ snd (step ord w (OCheck g)) = Ok VUnit) /\
  (~ bare_copy h g ->
     (acyclic (has_edge h g) /\ snd (step ord w (OCycle g)) = Ok (VCycle None) /\ snd (step ord w (OCheck g)) = Ok VUnit) \/
     (~ acyclic (has_edge h g) /\ (exists c, is_cycle (has_edge h g) c /\ snd (step ord w (OCycle g)) = Ok (VCycle (Some c))) /\
      snd (step ord w (OCheck g)) = Err CycleError)).
Proof.
  intros h w g ord R Kn HO. destruct (run_AllGI h w R) as [A K]. apply K in Kn. apply nth_error_Some in Kn.
  destruct (nth_error (w_graphs w) g) as [G|] eqn:EG; [clear Kn|congruence]. destruct (A g G EG) as [B1 B2 B3 B4 B5].
  cbn [step]. unfold with_graph. rewrite EG. unfold g_check. split.
  - intros HB. rewrite (B4 HB). cbn. auto.
  - intros NB. assert (C := cycle_spec (g_nodes G) ord B1 HO).
    destruct (g_dirty G).
    + destruct C as [[Ac E]|(c & Ic & E)]; rewrite E.
      * left. split; [|auto]. now apply (edge_acyclic_iff _ _ B3).
      * right. assert (Ic' : is_cycle (has_edge h g) c) by (eapply edge_cycle_iff; [exact B3|exact Ic]).
        split; [eapply is_cycle_not_acyclic; eauto|]. split; [exists c; auto|]. destruct c; [destruct Ic|reflexivity].
    + destruct (B5 eq_refl) as [HB|HA]; [contradiction|]. left. split; [|auto]. now apply (edge_acyclic_iff _ _ B3).
Qed.
Print Assumptions C20_contents_exact.
Print Assumptions C20_cycle_exact.

(** A graph with a cycle, its copy, a dependency added to the copy, a node removed from the original, and a failing done(): all of it
    reachable, and the contents differ as they should. *)
Definition copy_calls := calls [ONewGraph; OAdd 0 1 [2]; OAdd 0 2 [1]; OCopy 0; OAdd 1 1 [3]; ORemove 0 1; ODone 0 [9]; OCycle 1; OCycle 0; OLen 0; OLen 1].
Example C20_exact_example :
  results copy_calls start = [Ok (VGraph 0 0); Ok VUnit; Ok VUnit; Ok (VGraph 1 4); Err KeyError; Ok VUnit; Err ValueError; Ok (VCycle (Some [1; 2])); Ok (VCycle None); Ok (VInt 1); Ok (VInt 3)] /\
  let h := fst (play copy_calls [] start) in
  has_node h 1 1 /\ ~ has_node h 0 1 /\ has_node h 0 2 /\ ~ bare_copy h 1 /\ bare_copy (skipn 7 h) 1 /\ graph_known h 1.
Proof.
  split; [vm_compute; reflexivity|]. cbv zeta.
  assert (E : fst (play copy_calls [] start) = rev (combine (map snd copy_calls) (results copy_calls start))) by (vm_compute; reflexivity).
  assert (E2 : results copy_calls start = [Ok (VGraph 0 0); Ok VUnit; Ok VUnit; Ok (VGraph 1 4); Err KeyError; Ok VUnit; Err ValueError; Ok (VCycle (Some [1; 2])); Ok (VCycle None); Ok (VInt 1); Ok (VInt 3)]) by (vm_compute; reflexivity).
  rewrite E, E2. clear E E2. unfold copy_calls, calls. cbn [map snd combine rev app skipn has_node has_edge bare_copy].
  split; [|split; [|split; [|split; [|split]]]].
  - tauto || intuition (try discriminate; eauto).
  - intuition (try discriminate; try congruence).
  - cbn. intuition (try discriminate; try congruence).
  - intros H. repeat match type of H with _ /\ _ => destruct H as [? H] end. all: try tauto.
    all: cbn in *; intuition (try discriminate; try congruence; eauto).
    apply H. exists 3. split; [auto|]. intuition congruence.
  - auto.
  - eexists _, _. cbn. eauto 20.
Qed.
