(** add, remove, and the invariant for every history. *)
From Verif Require Import PyBase PyBaseProof PyDict PyDictProof GraphModel GraphSpec
  GraphProof1 GraphProof2 GraphProof3 GraphProof4 GraphProof5.
From Coq Require Import Lia.

Lemma notify_spec f vs : forall store, NoDup vs ->
  (forall i, In i vs -> exists v v', nth_error store i = Some v /\ f v = (v', Ok tt)) ->
  exists store', notify f store vs = (store', Ok tt) /\ length store' = length store /\
    forall i, nth_error store' i = if smem i vs then option_map (fun v => fst (f v)) (nth_error store i)
                                   else nth_error store i.
Proof.
  unfold notify. induction vs as [|i t IH]; intros store ND H; cbn [for_each].
  - exists store. auto.
  - inversion ND; subst. destruct (H i) as (v & v' & E & F); [cbn; auto|]. rewrite E, F.
    pose proof (nth_error_some_lt _ _ _ E) as L.
    assert (Nu : forall j, nth_error (upd store i v') j = if j =? i then Some v' else nth_error store j).
    { intros j. rewrite nth_error_upd, (Nat.eqb_sym j i). destruct (i =? j) eqn:Q; auto.
      apply Nat.eqb_eq in Q. subst j. apply Nat.ltb_lt in L. now rewrite L. }
    destruct (IH (upd store i v') H3) as (s' & E' & L' & N').
    { intros j Hj. rewrite Nu. destruct (j =? i) eqn:Q; [apply Nat.eqb_eq in Q; subst; tauto|].
      apply H. cbn. auto. }
    exists s'. split; auto. split; [rewrite L', upd_length; auto|]. intros j. rewrite N', Nu.
    cbn [smem existsb]. fold (smem j t). destruct (j =? i) eqn:Q; auto.
    apply Nat.eqb_eq in Q. subst j. apply smem_false in H2. rewrite H2. cbn. rewrite E. cbn. now rewrite F.
Qed.

(** the effect of add() on one view *)
Lemma VI_succs node ss : forall K E L C v, VI K E L C v -> NoDup ss -> In node K ->
  (forall d, In d ss -> In d K /\ E d node = false) ->
  exists v', for_each (fun v s => v_add_successor v s node) v ss = (v', Ok tt) /\
    v_graph v' = v_graph v /\ v_yielded v' = v_yielded v /\ v_done v' = v_done v /\
    VI K (fun a b => E a b || (smem a ss && (b =? node)))
       (fun x => L x \/ (x = node /\ ~ In node (v_done v) /\ exists d, In d ss /\ In d (v_done v)))
       (fun a b => C a b \/ (b = node /\ In a ss /\ ~ In a (v_done v) /\
                             (In node (v_yielded v) \/ In node (v_done v)))) v'.
Proof.
  induction ss as [|d t IH]; intros K E L C v H ND Kn Hs; cbn [for_each].
  - exists v. do 4 (split; auto). eapply VI_ext; [| | |exact H]; cbn; intros.
    + now rewrite orb_false_r.
    + split; auto. intros [?|(_ & _ & d & [] & _)]; auto.
    + tauto.
  - inversion ND; subst. destruct (Hs d) as [Kd Ed]; [cbn; auto|].
    destruct (VI_add_successor K E L C v d node H Kd Kn Ed) as (v1 & E1 & G1 & Y1 & D1 & H1').
    rewrite E1. destruct (IH _ _ _ _ v1 H1' H3 Kn) as (v' & E' & G' & Y' & D' & H').
    { intros x Hx. destruct (Hs x) as [Kx Ex]; [cbn; auto|]. split; auto. rewrite Ex. cbn.
      replace (x =? d) with false; auto. symmetry. apply Nat.eqb_neq. congruence. }
    exists v'. split; auto. do 3 (split; [congruence|]).
    rewrite Y1, D1 in H'. eapply VI_ext; [| | |exact H'].
    + intros a b. cbn [smem existsb]. fold (smem a t). destruct (E a b), (a =? d), (b =? node), (smem a t); auto.
    + intros x. cbn. split.
      * intros [[?|(-> & ? & ?)]|(-> & ? & y & ? & ?)]; auto; right; repeat split; auto; eauto.
      * intros [?|(-> & ? & y & [<-|?] & ?)]; auto; right; repeat split; auto; eauto.
    + intros a b. cbn. intuition (subst; auto).
Qed.
Lemma VI_add N dirty node deps L C v : VI (dkeys N) (edge N) L C v -> NI N ->
  let a := add_nodes_part N dirty node deps in
  exists v', for_each (fun v s => v_add_successor v s node) (v_add_nodes v (a_new a)) (a_succ a) = (v', Ok tt) /\
    v_graph v' = v_graph v /\ v_yielded v' = v_yielded v /\ v_done v' = v_done v /\
    VI (dkeys (a_nodes a)) (edge (a_nodes a))
       (fun x => L x \/ (x = node /\ ~ In node (v_done v) /\ exists d, In d deps /\ edge N d node = false /\ In d (v_done v)))
       (fun a b => C a b \/ (b = node /\ In a deps /\ edge N a node = false /\ ~ In a (v_done v) /\
                             (In node (v_yielded v) \/ In node (v_done v)))) v'.
Proof.
  intros H HN a. destruct (add_nodes_part_spec N dirty node deps HN) as (A1 & A2 & A3 & A4 & A5 & A6 & A7).
  fold a in A1, A2, A3, A4, A5, A6, A7.
  assert (ND : NoDup (dkeys N ++ a_new a)) by (rewrite <- A2; apply A1).
  assert (V1 : VI (dkeys (a_nodes a)) (edge N) L C (v_add_nodes v (a_new a))).
  { rewrite A2. apply VI_add_nodes; auto.
    - intros d n Hn. destruct (edge N d n) eqn:E; auto. exfalso.
      apply (ni_closed _ HN) in E. eapply nodup_app_disj; eauto.
    - intros d n Hn. destruct (edge N d n) eqn:E; auto. exfalso.
      apply edge_key in E. eapply nodup_app_disj; eauto. }
  destruct (VI_succs node (a_succ a) _ _ _ _ _ V1 A5) as (v' & E' & G' & Y' & D' & H').
  { apply A3. auto. }
  { intros d Hd. apply A6 in Hd. split; [apply A3; tauto|tauto]. }
  exists v'. rewrite E'. rewrite add_nodes_eq in *. cbn [v_graph v_yielded v_done] in *.
  do 4 (split; auto). eapply VI_ext; [| | |exact H'].
  - intros d n. apply eq_true_iff_eq. rewrite A4, orb_true_iff, andb_true_iff, smem_true, Nat.eqb_eq, A6.
    destruct (edge N d n) eqn:E; [tauto|]. split; [intuition congruence|].
    intros [?|[-> ?]]; [auto|]. rewrite E. auto.
  - intros x. split; intros [?|(-> & ? & d & Q)]; auto; right; do 2 (split; auto); exists d;
      pose proof (A6 d); tauto.
  - intros x y. pose proof (A6 x). split; intros [?|Q]; auto; right; tauto.
Qed.

(** a world in which only the views of graph [g] and its nodes/dirty bit changed *)
Lemma WI_graph_event h w o g G G' vs' :
  WI h w -> nth_error (w_graphs w) g = Some G ->
  (o = OAdd g (match o with OAdd _ m _ => m | _ => 0 end) (match o with OAdd _ _ ds => ds | _ => [] end) \/
   o = ORemove g (match o with ORemove _ m => m | _ => 0 end)) ->
  let e := (o, Ok VUnit) in
  g_views G' = g_views G -> g_stock G' = g_stock G ->
  length vs' = length (w_views w) ->
  (forall i, ~ In i (g_views G) -> nth_error vs' i = nth_error (w_views w) i) ->
  NI (g_nodes G') ->
  (forall n, In n (dkeys (g_nodes G')) <-> node_in (e :: h) g n) ->
  (forall d n, edgeP (g_nodes G') d n <-> edge_in (e :: h) g d n) ->
  (g_dirty G' = false -> acyclic (edgeP (g_nodes G'))) ->
  (forall v V, nth_error (w_views w) v = Some V -> view_on h v g -> ViewR h (g_nodes G) v g V ->
     exists V', nth_error vs' v = Some V' /\ ViewR (e :: h) (g_nodes G') v g V') ->
  (forall V, nth_error (w_views w) (g_stock G) = Some V -> StockR (g_nodes G) g V ->
     exists V', nth_error vs' (g_stock G) = Some V' /\ StockR (g_nodes G') g V') ->
  WI (e :: h) (mkW (upd (w_graphs w) g G') vs').
Proof.
  intros HW EG Ho e HV HS LV Out HNI Hn He Hd Hview Hstock.
  assert (On' : forall v g', view_on (e :: h) v g' <-> view_on h v g').
  { intros. unfold e. destruct Ho as [->| ->]; cbn; tauto. }
  assert (Kg : forall g', graph_known (e :: h) g' <-> graph_known h g') by (intros; now apply known_graph_same).
  assert (Kv : forall v, view_known (e :: h) v <-> view_known h v) by (intros; now apply known_view_same).
  assert (Nn : forall g' n, g' <> g -> node_in (e :: h) g' n <-> node_in h g' n).
  { intros g' n Q. unfold e. destruct Ho as [->| ->]; cbn; intuition congruence. }
  assert (Ne : forall g' d n, g' <> g -> edge_in (e :: h) g' d n <-> edge_in h g' d n).
  { intros g' d n Q. unfold e. destruct Ho as [->| ->]; cbn; intuition congruence. }
  assert (Sv : forall v g', g' <> g -> view_on h v g' ->
     (forall n, handed (e :: h) v n <-> handed h v n) /\ (forall n, is_done (e :: h) v n <-> is_done h v n) /\
     (forall n, late (e :: h) v n <-> late h v n) /\ (forall d n, conflict (e :: h) v d n <-> conflict h v d n)).
  { intros v g' Q On. assert (~ view_on h v g). { intros On2. apply Q. eapply view_on_unique; eauto. }
    unfold e. destruct Ho as [->| ->]; cbn; intuition. }
  pose proof (nth_error_some_lt _ _ _ EG) as Lg.
  destruct (wi_graph _ _ HW g G EG) as [A1 A2 A3 A4 A5 A6 A7 (S & A8 & A9)].
  assert (NotIn : forall v g', g' <> g -> view_on h v g' -> ~ In v (g_views G)).
  { intros v g' Q On I. apply A6 in I. destruct I as [->|I].
    - apply A7. destruct (wi_view _ _ HW _ _ On). auto.
    - apply Q. eapply view_on_unique; eauto. }
  constructor; cbn [w_graphs w_views].
  - intros g'. rewrite Kg, upd_length. apply HW.
  - intros g' G2. rewrite nth_error_upd. destruct (g =? g') eqn:Q.
    + apply Nat.eqb_eq in Q. subst g'. apply Nat.ltb_lt in Lg. rewrite Lg. intros [= <-].
      constructor; rewrite ?HV, ?HS; auto.
      * intros v. rewrite On'. auto.
      * rewrite Kv. auto.
      * destruct (Hstock S A8 A9) as (V' & ? & ?). eauto.
    + intros E2. apply Nat.eqb_neq in Q. destruct (wi_graph _ _ HW g' G2 E2) as [B1 B2 B3 B4 B5 B6 B7 (S2 & B8 & B9)].
      constructor; auto.
      * intros n. rewrite Nn; auto.
      * intros d n. rewrite Ne; auto.
      * intros v. rewrite On'. auto.
      * rewrite Kv. auto.
      * exists S2. split; auto. cbn [w_views]. rewrite Out; auto. intros I. apply A6 in I. destruct I as [I|I].
        -- rewrite I in B8. rewrite A8 in B8. injection B8 as <-. destruct A9, B9. congruence.
        -- apply B7. destruct (wi_view _ _ HW _ _ I). auto.
  - intros v. rewrite Kv, LV. apply HW.
  - intros v g'. rewrite On', Kv. intros On. destruct (wi_view _ _ HW v g' On) as (K & G2 & V & E2 & EV & R).
    split; auto. destruct (Nat.eq_dec g' g) as [->|Q].
    + rewrite EG in E2. injection E2 as <-. destruct (Hview v V EV On R) as (V' & ? & ?).
      exists G', V'. split; auto. rewrite nth_error_upd, Nat.eqb_refl. apply Nat.ltb_lt in Lg. now rewrite Lg.
    + exists G2, V. rewrite nth_error_upd. destruct (g =? g') eqn:F; [apply Nat.eqb_eq in F; congruence|].
      split; auto. split; [rewrite Out; eauto|]. destruct (Sv v g' Q On) as (S1 & S2 & S3 & S4).
      eapply ViewR_ext; eauto.
  - intros v. rewrite Kv. intros K. destruct (wi_closed _ _ HW v K) as [[g' On]|(V & E2 & F)].
    + left. exists g'. apply On'. auto.
    + right. exists V. split; auto. rewrite Out; auto. intros I. apply A6 in I. destruct I as [->|I].
      * rewrite A8 in E2. injection E2 as <-. destruct A9. congruence.
      * destruct (open_view _ _ _ _ HW I) as (? & V2 & _ & E3 & [] & _). congruence.
  - intros g' n. rewrite upd_length. destruct (Nat.eq_dec g' g) as [->|Q]; auto.
    rewrite Nn by auto. apply HW.
  - intros g' d n. rewrite upd_length. destruct (Nat.eq_dec g' g) as [->|Q]; auto.
    rewrite Ne by auto. apply HW.
Qed.

Lemma add_eff_views ns ss node store vs :
  match match ns with [] => (store, Ok tt) | n0 :: l0 => notify (fun v => (v_add_nodes v (n0 :: l0), Ok tt)) store vs end with
  | (st, r) => match r with Err e => (st, Err e)
               | Ok _ => notify (fun v => for_each (fun v s => v_add_successor v s node) v ss) st vs end
  end = match notify (fun v => (v_add_nodes v ns, Ok tt)) store vs with
  | (st, r) => match r with Err e => (st, Err e)
               | Ok _ => notify (fun v => for_each (fun v s => v_add_successor v s node) v ss) st vs end
  end.
Proof.
  destruct ns; auto.
  assert (E : forall s, notify (fun v => (v_add_nodes v [], Ok tt)) s vs = (s, Ok tt)).
  { unfold notify. induction vs as [|i t IH]; intros s; cbn [for_each]; auto.
    destruct (nth_error s i) eqn:E; [|apply IH]. cbn.
    replace (upd s i v) with s; [apply IH|].
    apply nth_error_ext. intros j. rewrite nth_error_upd. destruct (i =? j) eqn:F; auto.
    apply Nat.eqb_eq in F. subst. pose proof (nth_error_some_lt _ _ _ E) as L. apply Nat.ltb_lt in L. rewrite L. auto. }
  now rewrite E.
Qed.

Lemma WI_add h w g G node deps : WI h w -> nth_error (w_graphs w) g = Some G ->
  exists w', g_add w g G node deps = (w', Ok tt) /\ WI ((OAdd g node deps, Ok VUnit) :: h) w'.
Proof.
  intros HW EG. unfold g_add. set (a := add_nodes_part (g_nodes G) (g_dirty G) node deps).
  destruct (wi_graph _ _ HW g G EG) as [B1 B2 B3 B4 B5 B6 B7 (S & B8 & B9)].
  destruct (add_nodes_part_spec (g_nodes G) (g_dirty G) node deps B1) as (A1 & A2 & A3 & A4 & A5 & A6 & A7).
  fold a in A1, A2, A3, A4, A5, A6, A7.
  pose proof (add_eff_views (a_new a) (a_succ a) node (w_views w) (g_views G)) as EF.
  assert (Lk : forall i, In i (g_views G) -> exists V L C, nth_error (w_views w) i = Some V /\
     VI (dkeys (g_nodes G)) (edge (g_nodes G)) L C V).
  { intros i Hi. apply B6 in Hi. destruct Hi as [->|On].
    - destruct B9. eauto 6.
    - destruct (open_view _ _ _ _ HW On) as (G1 & V & E1 & E2 & [] & _). rewrite EG in E1. injection E1 as <-. eauto 6. }
  destruct (notify_spec (fun v => (v_add_nodes v (a_new a), Ok tt)) (g_views G) (w_views w) B5) as (s1 & E1 & L1 & N1).
  { intros i Hi. destruct (Lk i Hi) as (V & _ & _ & E & _). eauto. }
  rewrite E1 in EF.
  destruct (notify_spec (fun v => for_each (fun v s => v_add_successor v s node) v (a_succ a)) (g_views G) s1 B5) as (s2 & E2 & L2 & N2).
  { intros i Hi. destruct (Lk i Hi) as (V & L & C & E & I). rewrite N1.
    apply smem_true in Hi. rewrite Hi, E. cbn.
    destruct (VI_add _ (g_dirty G) node deps L C V I B1) as (v' & F & _). fold a in F. eauto. }
  rewrite E2 in EF.
  destruct (match a_new a with [] => _ | _ :: _ => _ end) as [st r]. 
  destruct r as [[]|ex]; [|discriminate EF].
  rewrite EF. eexists. split; [reflexivity|].
  assert (N3 : forall i V L C, In i (g_views G) -> nth_error (w_views w) i = Some V ->
     VI (dkeys (g_nodes G)) (edge (g_nodes G)) L C V ->
     exists V', nth_error s2 i = Some V' /\ v_graph V' = v_graph V /\ v_yielded V' = v_yielded V /\ v_done V' = v_done V /\
       VI (dkeys (a_nodes a)) (edge (a_nodes a))
       (fun x => L x \/ (x = node /\ ~ In node (v_done V) /\ exists d, In d deps /\ edge (g_nodes G) d node = false /\ In d (v_done V)))
       (fun a b => C a b \/ (b = node /\ In a deps /\ edge (g_nodes G) a node = false /\ ~ In a (v_done V) /\
                             (In node (v_yielded V) \/ In node (v_done V)))) V').
  { intros i V L C Hi EV I. destruct (VI_add _ (g_dirty G) node deps L C V I B1) as (v' & F & G' & Y & D & VI').
    fold a in F, VI'. exists v'. split; auto.
    apply smem_true in Hi. rewrite N2, Hi, N1, Hi, EV. cbn [option_map fst]. now rewrite F. }
  apply WI_graph_event with (G := G); cbn [g_nodes g_dirty g_views g_stock set_dirty set_nodes]; auto.
  - congruence.
  - intros i Hi. apply smem_false in Hi. now rewrite N2, N1, Hi.
  - intros n. rewrite A3, B2. cbn. tauto.
  - intros d n. unfold edgeP. rewrite A4. fold (edgeP (g_nodes G) d n). rewrite B3. cbn. tauto.
  - rewrite A7. intros F. apply orb_false_iff in F. destruct F as [F1 F2].
    assert (Q : forall d n, edgeP (a_nodes a) d n -> edgeP (g_nodes G) d n).
    { intros d n. unfold edgeP. rewrite A4. intros [?|[-> Hd]]; auto.
      destruct (edge (g_nodes G) d node) eqn:X; auto. exfalso.
      assert (I : In d (a_succ a)) by (apply A6; auto). destruct (a_succ a); [destruct I|discriminate]. }
    intros n R. apply (B4 F1 n). clear - Q R. revert R. generalize n at 2 4. intros m R.
    induction R; [constructor; auto|eapply reachesS; eauto].
  - intros v V EV On R. destruct R as [R1 R2 R3 R4 R5].
    destruct (N3 v V _ _ (proj2 (B6 v) (or_intror On)) EV R2) as (V' & E' & G' & Y' & D' & VI').
    exists V'. split; auto. constructor.
    + congruence.
    + eapply VI_ext; [| | |exact VI']; auto.
      * intros x. cbn. rewrite R4. split.
        -- intros [Q|(-> & ? & d & ? & Fe & Q)]; auto. left. split; auto. split; auto. split; auto.
           exists d. split; auto. split; [|apply R4; auto]. rewrite <- B3. unfold edgeP. congruence.
        -- intros [(_ & -> & ? & d & ? & Fe & Q)|Q]; auto. right. split; auto. split; auto.
           exists d. split; auto. split; [|apply R4; auto]. rewrite <- B3 in Fe. unfold edgeP in Fe.
           now destruct (edge (g_nodes G) d node).
      * intros x y. cbn. rewrite R3, !R4.
        assert (P : edge (g_nodes G) x node = false <-> ~ edge_in h g x node).
        { rewrite <- B3. unfold edgeP. destruct (edge (g_nodes G) x node); split; congruence. }
        rewrite P. split.
        -- intros [?|(-> & ? & ? & ? & Q)]; auto. left. split; auto. split; auto. split; auto. split; auto.
           split; auto. destruct Q as [[? _]|Q]; auto.
        -- intros [(_ & -> & ? & ? & Hh & ?)|?]; auto. right. repeat split; auto.
           assert (Dec : is_done h v node \/ ~ is_done h v node).
           { rewrite <- R4. destruct (in_dec Nat.eq_dec node (v_done V)); auto. }
           tauto.
    + intros n. rewrite Y', R3. cbn. tauto.
    + intros n. rewrite D', R4. cbn. tauto.
    + intros n. cbn. specialize (R5 n). tauto.
  - intros V EV R. destruct R as [R1 R2 R3 R4].
    destruct (N3 (g_stock G) V _ _ (proj2 (B6 _) (or_introl eq_refl)) EV R2) as (V' & E' & G' & Y' & D' & VI').
    exists V'. split; auto. constructor; try congruence.
    rewrite R3, R4 in VI'. eapply VI_ext; [| | |exact VI']; auto.
    + unfold none1. intros x. cbn. split; [|tauto]. intros [[]|(_ & _ & d & _ & _ & [])].
    + unfold none2. cbn. tauto.
Qed.

Lemma WI_remove h w g G node : WI h w -> nth_error (w_graphs w) g = Some G -> In node (dkeys (g_nodes G)) ->
  exists w', g_remove w g G node = (w', Ok tt) /\ WI ((ORemove g node, Ok VUnit) :: h) w'.
Proof.
  intros HW EG Hin. unfold g_remove. rewrite (proj2 (dmem_true _ _) Hin). cbn [negb].
  destruct (wi_graph _ _ HW g G EG) as [B1 B2 B3 B4 B5 B6 B7 (S & B8 & B9)].
  destruct (remove_nodes_part (g_nodes G) node) as [N' ss] eqn:ER.
  destruct (remove_nodes_part_spec _ _ _ _ B1 Hin ER) as (A1 & A2 & A3 & A4).
  assert (Sn : NoDup ss) by (rewrite A4; apply nodup_lremove, B1).
  assert (Si : forall s, In s ss <-> edge (g_nodes G) node s = true /\ s <> node).
  { intros s. rewrite A4, in_lremove by apply B1. now rewrite edge_succ. }
  assert (Lk : forall i, In i (g_views G) -> exists V L C, nth_error (w_views w) i = Some V /\
     VI (dkeys (g_nodes G)) (edge (g_nodes G)) L C V).
  { intros i Hi. apply B6 in Hi. destruct Hi as [->|On].
    - destruct B9. eauto 6.
    - destruct (open_view _ _ _ _ HW On) as (G1 & V & E1 & E2 & [] & _). rewrite EG in E1. injection E1 as <-. eauto 6. }
  destruct (notify_spec (fun v => v_remove_node v node ss) (g_views G) (w_views w) B5) as (s1 & E1 & L1 & N1).
  { intros i Hi. destruct (Lk i Hi) as (V & L & C & E & I).
    destruct (VI_remove_node _ _ _ _ V node ss I Hin Sn Si (ni_closed _ B1)) as (v' & F & _). eauto. }
  rewrite E1. eexists. split; [reflexivity|].
  assert (N3 : forall i V L C, In i (g_views G) -> nth_error (w_views w) i = Some V ->
     VI (dkeys (g_nodes G)) (edge (g_nodes G)) L C V ->
     exists V', nth_error s1 i = Some V' /\ v_graph V' = v_graph V /\
       (forall n, In n (v_yielded V') <-> In n (v_yielded V) /\ n <> node) /\
       (forall n, In n (v_done V') <-> In n (v_done V) /\ n <> node) /\
       VI (dkeys N') (edge N') (fun n => L n /\ n <> node) (fun d n => C d n /\ d <> node /\ n <> node) V').
  { intros i V L C Hi EV I.
    destruct (VI_remove_node _ _ _ _ V node ss I Hin Sn Si (ni_closed _ B1)) as (v' & F & G' & Y & D & VI').
    exists v'. split; [apply smem_true in Hi; rewrite N1, Hi, EV; cbn; now rewrite F|].
    do 3 (split; auto). rewrite A2. eapply VI_ext; [| | |exact VI']; auto; intros; tauto. }
  apply WI_graph_event with (G := G); cbn [g_nodes g_dirty g_views g_stock set_dirty set_nodes]; auto.
  - intros i Hi. apply smem_false in Hi. now rewrite N1, Hi.
  - intros n. rewrite A2, in_lremove, B2 by apply B1. cbn. intuition.
  - intros d n. unfold edgeP. rewrite A3, !andb_true_iff, !negb_true_iff, !Nat.eqb_neq.
    fold (edgeP (g_nodes G) d n). rewrite B3. cbn. intuition.
  - intros F n R. apply (B4 F n). clear - A3 R. revert R. generalize n at 2 4. intros m R.
    induction R as [x y H|x y z H _ IH]; unfold edgeP in H; rewrite A3, !andb_true_iff in H.
    + constructor. apply H.
    + eapply reachesS; [apply H|auto].
  - intros v V EV On R. destruct R as [R1 R2 R3 R4 R5].
    destruct (N3 v V _ _ (proj2 (B6 v) (or_intror On)) EV R2) as (V' & E' & G' & Y' & D' & VI').
    exists V'. split; auto.
    assert (X : forall n, ~ (view_on h v g /\ n = node) <-> n <> node) by (intros; tauto).
    constructor.
    + congruence.
    + eapply VI_ext; [| | |exact VI']; auto; cbn; intros; tauto.
    + intros n. rewrite Y', R3. cbn. tauto.
    + intros n. rewrite D', R4. cbn. tauto.
    + intros n. cbn. specialize (R5 n). tauto.
  - intros V EV R. destruct R as [R1 R2 R3 R4].
    destruct (N3 (g_stock G) V _ _ (proj2 (B6 _) (or_introl eq_refl)) EV R2) as (V' & E' & G' & Y' & D' & VI').
    exists V'. split; auto. constructor; try congruence.
    + eapply VI_ext; [| | |exact VI']; auto; unfold none1, none2; cbn; tauto.
    + destruct (v_yielded V') as [|x t]; auto. exfalso.
      specialize (proj1 (Y' x) (or_introl eq_refl)). rewrite R3. cbn. tauto.
    + destruct (v_done V') as [|x t]; auto. exfalso.
      specialize (proj1 (D' x) (or_introl eq_refl)). rewrite R4. cbn. tauto.
Qed.

(** what each call returns, in terms of the history *)
Definition answer (h : history) (w : world) (o : op) (r : result value) : Prop :=
  match o with
  | ONewGraph => exists g v, r = Ok (VGraph g v) /\ ~ graph_known h g /\ ~ view_known h v
  | OAdd _ _ _ => r = Ok VUnit
  | ORemove g n => (node_in h g n /\ r = Ok VUnit) \/ (~ node_in h g n /\ r = Err ValueError)
  | OCopy _ => True
  | OView g => exists v, r = Ok (VView v) /\ ~ view_known h v
  | OLen g => exists l, NoDup l /\ (forall n, In n l <-> node_in h g n) /\ r = Ok (VInt (Z.of_nat (length l)))
  | OCycle g => (acyclic (edge_in h g) /\ r = Ok (VCycle None)) \/
                (exists c, is_cycle (edge_in h g) c /\ r = Ok (VCycle (Some c)))
  | OCheck g => (acyclic (edge_in h g) /\ r = Ok VUnit) \/ (~ acyclic (edge_in h g) /\ r = Err CycleError)
  | OReady v =>
      ((forall g, ~ view_on h v g) /\ r = Err ValueError) \/
      (exists g, view_on h v g /\
        (((exists d n, conflict h v d n) /\ r = Err RuntimeError) \/
         ((forall d n, ~ conflict h v d n) /\ ~ acyclic (edge_in h g) /\ r = Err CycleError) \/
         ((forall d n, ~ conflict h v d n) /\ acyclic (edge_in h g) /\
          exists l, r = Ok (VNodes l) /\ NoDup l /\
            forall n, In n l <-> node_in h g n /\ ~ handed h v n /\ ~ late h v n /\
                                 forall d, edge_in h g d n -> is_done h v d)))
  | ODone v ns =>
      ((forall g, ~ view_on h v g) /\ r = Err ValueError) \/
      ((exists g, view_on h v g) /\
        (((exists d n, conflict h v d n) /\ r = Err RuntimeError) \/
         ((forall d n, ~ conflict h v d n) /\ r = Ok VUnit)))
  | OBool v =>
      ((forall g, ~ view_on h v g) /\ r = Err ValueError) \/
      (exists g, view_on h v g /\
        (((exists d n, conflict h v d n) /\ r = Err RuntimeError) \/
         ((forall d n, ~ conflict h v d n) /\ exists b, r = Ok (VBool b) /\
           (b = true <-> exists n, node_in h g n /\ ~ is_done h v n))))
  | OReset v | OClose v =>
      ((forall g, ~ view_on h v g) /\ r = Err ValueError) \/ ((exists g, view_on h v g) /\ r = Ok VUnit)
  | OViewCopy v =>
      ((forall g, ~ view_on h v g) /\ r = Err ValueError) \/
      (exists g u, view_on h v g /\ r = Ok (VView u) /\ ~ view_known h u)
  end.

Lemma edge_acyclic_iff (e e' : nat -> nat -> Prop) : (forall d n, e d n <-> e' d n) -> acyclic e <-> acyclic e'.
Proof.
  intros H. unfold acyclic.
  assert (forall e e' : nat -> nat -> Prop, (forall d n, e d n -> e' d n) -> forall a b, reaches e a b -> reaches e' a b).
  { intros x y Q a b R. induction R; [constructor; auto|eapply reachesS; eauto]. }
  split; intros A n R; apply (A n); eapply H0; try exact R; apply H.
Qed.
Lemma edge_cycle_iff (e e' : nat -> nat -> Prop) c : (forall d n, e d n <-> e' d n) -> is_cycle e c -> is_cycle e' c.
Proof.
  intros H. destruct c as [|x t]; auto. cbn [is_cycle]. intros (A & B & C). split; auto. split; [|apply H; auto].
  clear - H B. generalize dependent x. induction t as [|y t IH]; intros x B; cbn in *; auto.
  destruct B as [B1 B2]. split; [apply H; auto|apply IH; auto].
Qed.

Lemma conf_dec h N v g V : ViewR h N v g V ->
  (v_conf V = [] /\ forall d n, ~ conflict h v d n) \/ (v_conf V <> [] /\ exists d n, conflict h v d n).
Proof.
  intros [_ [_ []] _ _ _]. destruct (v_conf V) as [|[d s] t] eqn:E.
  - left. split; auto. intros d n Q. apply ci_c in Q. destruct Q as [s [[=] _]].
  - right. split; [discriminate|]. destruct s as [|n s].
    + exfalso. destruct ci_wf as [_ W]. apply (W d []); cbn; auto. now rewrite Nat.eqb_refl.
    + exists d, n. apply ci_c. exists (n :: s). cbn. rewrite Nat.eqb_refl. cbn. auto.
Qed.
Lemma closed_no h w v : WI h w -> view_known h v ->
  (exists g, view_on h v g) \/ ((forall g, ~ view_on h v g) /\ forall k, with_open w v k = (w, Err ValueError)).
Proof.
  intros HW K. destruct (wi_closed _ _ HW v K) as [|(V & E & F)]; auto. right. split.
  - intros g On. destruct (open_view _ _ _ _ HW On) as (G & V' & _ & E' & [] & _). congruence.
  - intros k. unfold with_open. now rewrite E, F.
Qed.

Theorem WI_step h w ord o w' r : WI h w -> set_order ord -> good_call h o -> step ord w o = (w', r) ->
  WI ((o, r) :: h) w' /\ answer h w o r.
Proof.
  intros HW HO HG E. destruct o; cbn [good_call] in HG; try (destruct HG; fail); cbn [step] in E; cbn [answer].
  - (* new graph *)
    injection E as <- <-. split; [apply WI_new_graph; auto|]. eexists _, _. split; eauto. split.
    + intros Q. apply (wi_g _ _ HW) in Q. lia.
    + intros Q. apply (wi_vk _ _ HW) in Q. lia.
  - (* add *)
    destruct (known_graph_get _ _ _ HW HG) as (G & EG & GR). unfold with_graph in E. rewrite EG in E.
    destruct (WI_add h w g G n deps HW EG) as (w2 & E2 & H2). rewrite E2 in E. injection E as <- <-. auto.
  - (* remove *)
    destruct (known_graph_get _ _ _ HW HG) as (G & EG & GR). unfold with_graph in E. rewrite EG in E.
    destruct (in_dec Nat.eq_dec n (dkeys (g_nodes G))) as [I|I].
    + destruct (WI_remove h w g G n HW EG I) as (w2 & E2 & H2). rewrite E2 in E. injection E as <- <-.
      split; auto. left. split; auto. apply (gr_nodes _ _ _ _ GR). auto.
    + unfold g_remove in E. rewrite (proj2 (dmem_false _ _) I) in E. cbn in E. injection E as <- <-.
      assert (NI' : ~ node_in h g n) by (rewrite <- (gr_nodes _ _ _ _ GR); auto).
      split; [|auto].
      assert (Nd : forall g' x, node_in ((ORemove g n, Err ValueError) :: h) g' x <-> node_in h g' x).
      { intros g' x. cbn. split; [tauto|]. intros Q. split; auto. intros [<- ->]. tauto. }
      assert (Ed : forall g' d x, edge_in ((ORemove g n, Err ValueError) :: h) g' d x <-> edge_in h g' d x).
      { intros g' d x. cbn. split; [tauto|]. intros Q. split; auto. intros [<- F].
        rewrite <- (gr_edges _ _ _ _ GR) in Q. destruct F as [->| ->].
        - apply edge_key in Q. tauto. - apply (ni_closed _ (gr_ni _ _ _ _ GR)) in Q. tauto. }
      destruct HW as [W1 W2 W3 W4 W5 W6 W7]. constructor.
      * intros g'. rewrite known_graph_same; auto.
      * intros g' G' Q. destruct (W2 g' G' Q). constructor; auto.
        -- intros x. rewrite Nd. auto. -- intros d x. rewrite Ed. auto.
        -- rewrite known_view_same; auto.
      * intros v. rewrite known_view_same; auto.
      * intros v g' On. destruct (W4 v g' On) as (K & G' & V & Q1 & Q2 & Q3). split; [apply known_view_same; auto|].
        exists G', V. split; auto. split; auto. eapply ViewR_ext; [| | | |exact Q3]; cbn; intros; tauto.
      * intros v. rewrite known_view_same by auto. apply W5.
      * intros g' x. rewrite Nd. apply W6.
      * intros g' d x. rewrite Ed. apply W7.
  - (* view *)
    destruct (known_graph_get _ _ _ HW HG) as (G & EG & GR). unfold with_graph in E. rewrite EG in E.
    destruct (gr_sv _ _ _ _ GR) as (S & ES & SR). unfold copy_view in E. rewrite ES, (sr_graph _ _ _ SR), EG in E.
    injection E as <- <-. split.
    + eapply WI_new_view; eauto.
    + eexists. split; eauto. intros Q. apply (wi_vk _ _ HW) in Q. lia.
  - (* len *)
    destruct (known_graph_get _ _ _ HW HG) as (G & EG & GR). unfold with_graph in E. rewrite EG in E.
    injection E as <- <-. split; [eapply WI_quiet; [exact HW|reflexivity|apply dirty_eq_refl]|].
    exists (dkeys (g_nodes G)). split; [apply GR|]. split; [apply GR|]. unfold dkeys. now rewrite map_length.
  - (* cycle *)
    destruct (known_graph_get _ _ _ HW HG) as (G & EG & GR). unfold with_graph in E. rewrite EG in E.
    pose proof (edge_acyclic_iff _ _ (gr_edges _ _ _ _ GR)) as AI.
    assert (X : (acyclic (edgeP (g_nodes G)) /\ g_cycle ord (g_nodes G) (g_dirty G) = (false, Ok None)) \/
       (exists c, is_cycle (edgeP (g_nodes G)) c /\ g_cycle ord (g_nodes G) (g_dirty G) = (true, Ok (Some c)))).
    { destruct (g_dirty G) eqn:Ed; [apply cycle_spec; auto; apply GR|].
      left. split; [apply GR; auto|]. reflexivity. }
    destruct X as [[A Ec]|(c & A & Ec)]; rewrite Ec in E; cbn in E; injection E as <- <-.
    + split; [|left; split; auto; apply AI; auto].
      eapply WI_quiet; [exact HW|reflexivity|]. apply dirty_eq_put; auto.
    + split; [|right; exists c; split; auto; eapply edge_cycle_iff; eauto; apply GR].
      eapply WI_quiet; [exact HW|reflexivity|]. apply dirty_eq_put; auto. discriminate.
  - (* check *)
    destruct (known_graph_get _ _ _ HW HG) as (G & EG & GR). unfold with_graph in E. rewrite EG in E.
    pose proof (edge_acyclic_iff _ _ (gr_edges _ _ _ _ GR)) as AI.
    destruct (check_spec (g_nodes G) ord (g_dirty G) (gr_ni _ _ _ _ GR) HO (gr_dirty _ _ _ _ GR)) as [[A Ec]|(A & _ & Ec)];
      rewrite Ec in E; cbn in E; injection E as <- <-.
    + split; [|left; split; auto; apply AI; auto].
      eapply WI_quiet; [exact HW|reflexivity|]. apply dirty_eq_put; auto.
    + split; [|right; split; auto; rewrite <- AI; auto].
      eapply WI_quiet; [exact HW|reflexivity|]. apply dirty_eq_put; auto. discriminate.
  - (* ready *)
    destruct (closed_no _ _ _ HW HG) as [[g On]|[C1 C2]].
    2:{ rewrite C2 in E. injection E as <- <-. split; [|left; auto].
        eapply WI_quiet; [exact HW|reflexivity|apply dirty_eq_refl]. }
    destruct (with_open_on h w v g (fun v0 gi g0 => no_conflict w v0
      (match g_check ord (g_nodes g0) (g_dirty g0) with
       | (d, Err e) => (put_graph w gi (set_dirty g0 d), Err e)
       | (d, Ok _) => let '(v', l) := v_take_ready v0 in
                      (put_view (put_graph w gi (set_dirty g0 d)) v v', Ok (VNodes l))
       end)) HW On) as (G & V & EG & EV & VR & GR & Ek).
    rewrite Ek in E. clear Ek. unfold no_conflict in E.
    pose proof (edge_acyclic_iff _ _ (gr_edges _ _ _ _ GR)) as AI.
    destruct (conf_dec _ _ _ _ _ VR) as [[C1 C2]|[C1 C2]].
    2:{ destruct (v_conf V); [congruence|]. injection E as <- <-. split.
        - eapply WI_quiet; [exact HW|reflexivity|apply dirty_eq_refl].
        - right. exists g. auto. }
    rewrite C1 in E.
    destruct (check_spec (g_nodes G) ord (g_dirty G) (gr_ni _ _ _ _ GR) HO (gr_dirty _ _ _ _ GR)) as [[A Ec]|(A & _ & Ec)];
      rewrite Ec in E; cbn [v_take_ready] in E; injection E as <- <-.
    + split.
      * eapply WI_view_event with (w := w) (gu := g); eauto.
        -- cbn. apply Nat.eqb_refl.
        -- apply dirty_eq_put; auto.
        -- intros G1 EG1. rewrite EG in EG1. injection EG1 as <-. apply (ready_ViewR _ _ _ _ _ VR).
      * right. exists g. split; auto. right. right. split; auto. split; [apply AI; auto|].
        exists (v_ready V). split; auto. pose proof VR as VR0. destruct VR as [R1 [R2 _] R3 R4 R5].
        split; [apply R2|]. intros n. rewrite (vi_ready _ _ _ _ _ R2).
        rewrite (gr_nodes _ _ _ _ GR), R3, R4.
        assert (Dec : is_done h v n \/ ~ is_done h v n).
        { rewrite <- R4. destruct (in_dec Nat.eq_dec n (v_done V)); auto. }
        assert (Cn : node_in h g n -> ~ handed h v n ->
           (dget (v_pred V) n = Some 0%Z <-> ~ late h v n /\ forall d, edge_in h g d n -> is_done h v d)).
        { intros Hn Hh. destruct (vi_cnt _ _ _ _ _ R2 n) as (k & Ek & Lk).
          - apply (gr_nodes _ _ _ _ GR); auto. - rewrite R3; tauto. - rewrite R4. intros Q. apply Hh, R5, Q.
          - rewrite Ek.
            assert (Zero : cnt (dkeys (g_nodes G)) (fun d => edge (g_nodes G) d n && negb (smem d (v_done V))) = 0 <->
                           forall d, edge_in h g d n -> is_done h v d).
            { rewrite cnt_zero. split.
              - intros Q d Hd. rewrite <- (gr_edges _ _ _ _ GR) in Hd. specialize (Q d (edge_key _ _ _ Hd)).
                unfold edgeP in Hd. rewrite Hd in Q. cbn in Q. apply R4. apply smem_true. now destruct (smem d (v_done V)).
              - intros Q d _. destruct (edge (g_nodes G) d n) eqn:X; auto. cbn.
                assert (D : is_done h v d) by (apply Q, (gr_edges _ _ _ _ GR), X).
                apply R4 in D. apply smem_true in D. now rewrite D. }
            rewrite <- Zero. split.
            + intros [= Q]. split; [rewrite <- Lk; lia|lia].
            + intros [Q1 Q2]. rewrite Q2. assert (k = 0) by (destruct k; auto; exfalso; apply Q1, Lk; lia).
              subst. auto. }
        specialize (R5 n). tauto.
    + split.
      * eapply WI_quiet; [exact HW|reflexivity|]. apply dirty_eq_put; auto. discriminate.
      * right. exists g. split; auto. right. left. split; auto. split; auto. rewrite <- AI. auto.
  - (* done *)
    destruct HG as (HK & ND & HY).
    destruct (closed_no _ _ _ HW HK) as [[g On]|[C1 C2]].
    2:{ rewrite C2 in E. injection E as <- <-. split; [|left; auto].
        eapply WI_quiet; [exact HW|reflexivity|apply dirty_eq_refl]. }
    destruct (with_open_on h w v g (fun v0 gi g0 => no_conflict w v0
      (let '(v', r) := v_do_done (g_nodes g0) v0 ns in (put_view w v v', rmap (fun _ => VUnit) r))) HW On)
      as (G & V & EG & EV & VR & GR & Ek).
    rewrite Ek in E. clear Ek. unfold no_conflict in E.
    destruct (conf_dec _ _ _ _ _ VR) as [[C1 C2]|[C1 C2]].
    2:{ destruct (v_conf V); [congruence|]. injection E as <- <-. split.
        - eapply WI_quiet; [exact HW|reflexivity|apply dirty_eq_refl].
        - right. split; eauto. }
    rewrite C1 in E. destruct (done_ok _ _ _ _ _ ns VR (gr_ni _ _ _ _ GR) ND HY) as (V' & Ed).
    rewrite Ed in E. cbn in E. injection E as <- <-. split; [|right; split; eauto].
    eapply WI_view_event with (w := w) (gu := g); eauto using dirty_eq_refl.
    + cbn. apply Nat.eqb_refl.
    + intros G1 EG1. rewrite EG in EG1. injection EG1 as <-. eapply done_ViewR; eauto. apply GR.
  - (* bool *)
    destruct (closed_no _ _ _ HW HG) as [[g On]|[C1 C2]].
    2:{ rewrite C2 in E. injection E as <- <-. split; [|left; auto].
        eapply WI_quiet; [exact HW|reflexivity|apply dirty_eq_refl]. }
    destruct (with_open_on h w v g (fun v0 gi g0 => no_conflict w v0
      (w, Ok (VBool (length (v_done v0) <? length (g_nodes g0))%nat))) HW On)
      as (G & V & EG & EV & VR & GR & Ek).
    rewrite Ek in E. clear Ek. unfold no_conflict in E.
    destruct (conf_dec _ _ _ _ _ VR) as [[C1 C2]|[C1 C2]].
    2:{ destruct (v_conf V); [congruence|]. injection E as <- <-. split.
        - eapply WI_quiet; [exact HW|reflexivity|apply dirty_eq_refl].
        - right. exists g. auto. }
    rewrite C1 in E. injection E as <- <-. split; [eapply WI_quiet; [exact HW|reflexivity|apply dirty_eq_refl]|].
    right. exists g. split; auto. right. split; auto. eexists. split; eauto.
    destruct VR as [R1 [R2 _] R3 R4 R5].
    assert (Inc : incl (v_done V) (dkeys (g_nodes G))) by (intros n; apply R2).
    assert (Le : length (v_done V) <= length (g_nodes G)).
    { rewrite <- (map_length fst (g_nodes G)). apply NoDup_incl_length; auto. apply R2. }
    rewrite Nat.ltb_lt. split.
    + intros L.
      destruct (filter (fun n => negb (smem n (v_done V))) (dkeys (g_nodes G))) as [|n t] eqn:F.
      * exfalso. assert (incl (dkeys (g_nodes G)) (v_done V)).
        { intros n Hn. destruct (smem_in n (v_done V)) as [|Q]; auto. apply smem_false in Q.
          assert (I : In n []) by (rewrite <- F; apply filter_In; now rewrite Q). destruct I. }
        apply NoDup_incl_length in H; [|apply GR]. unfold dkeys in H. rewrite map_length in H. lia.
      * assert (I : In n (n :: t)) by (cbn; auto). rewrite <- F in I. apply filter_In in I.
        rewrite negb_true_iff, smem_false, R4, (gr_nodes _ _ _ _ GR) in I. eauto.
    + intros (n & Hn & Hd). rewrite <- (gr_nodes _ _ _ _ GR) in Hn. rewrite <- R4 in Hd.
      assert (NoDup (n :: v_done V)) by (constructor; auto; apply R2).
      assert (incl (n :: v_done V) (dkeys (g_nodes G))) by (intros x [<-|Q]; auto).
      pose proof (NoDup_incl_length H H0) as Q. unfold dkeys in Q. rewrite map_length in Q. cbn in Q. lia.
  - (* reset *)
    destruct (closed_no _ _ _ HW HG) as [[g On]|[C1 C2]].
    2:{ rewrite C2 in E. injection E as <- <-. split; [|left; auto].
        eapply WI_quiet; [exact HW|reflexivity|apply dirty_eq_refl]. }
    destruct (with_open_on h w v g (fun v0 gi g0 =>
      match nth_error (w_views w) (g_stock g0) with
      | None => (w, Err no_object)
      | Some s => (put_view w v (v_do_reset v0 s), Ok VUnit)
      end) HW On) as (G & V & EG & EV & VR & GR & Ek).
    rewrite Ek in E. clear Ek. destruct (gr_sv _ _ _ _ GR) as (S & ES & SR). rewrite ES in E.
    injection E as <- <-. split; [|right; split; eauto].
    eapply WI_view_event with (w := w) (gu := g); eauto using dirty_eq_refl.
    + cbn. apply Nat.eqb_refl.
    + intros G1 EG1. rewrite EG in EG1. injection EG1 as <-. eapply reset_ViewR; eauto.
  - (* close *)
    destruct (closed_no _ _ _ HW HG) as [[g On]|[C1 C2]].
    2:{ rewrite C2 in E. injection E as <- <-. split; [|left; auto].
        eapply WI_quiet; [exact HW|reflexivity|apply dirty_eq_refl]. }
    destruct (with_open_on h w v g (fun v0 gi g0 =>
      if smem v (g_views g0)
      then (put_view (put_graph w gi (set_views g0 (lremove v (g_views g0)))) v v_closed, Ok VUnit)
      else (w, Err ValueError)) HW On) as (G & V & EG & EV & VR & GR & Ek).
    rewrite Ek in E. clear Ek.
    rewrite (proj2 (smem_true v (g_views G))) in E by (apply GR; auto).
    injection E as <- <-. split; [|right; split; eauto]. apply WI_close; auto.
  - (* copy of a view *)
    destruct (wi_closed _ _ HW v HG) as [[g On]|(V & EV & F)].
    + destruct (open_view _ _ _ _ HW On) as (G & V & EG & EV & VR & GR).
      unfold copy_view in E. rewrite EV, (vr_graph _ _ _ _ _ VR), EG in E. injection E as <- <-. split.
      * eapply WI_new_view; eauto.
      * right. eexists _, _. split; [exact On|]. split; [reflexivity|]. intros Q. apply (wi_vk _ _ HW) in Q. lia.
    + unfold copy_view in E. rewrite EV, F in E. injection E as <- <-. split.
      * eapply WI_quiet; [exact HW|reflexivity|apply dirty_eq_refl].
      * left. split; auto. intros g On. destruct (open_view _ _ _ _ HW On) as (? & V' & _ & E' & [] & _). congruence.
Qed.

Theorem run_WI h w : run h w -> good h -> WI h w.
Proof.
  induction 1; cbn; intros HG; [apply WI_init|]. destruct HG as [HG1 HG2].
  eapply WI_step; eauto.
Qed.
