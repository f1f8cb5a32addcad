(** Views are independent: a simulation that ignores one view. *)
From Verif Require Import PyBase PyBaseProof PyDict PyDictProof GraphModel GraphSpec
  GraphProof1 GraphProof2 GraphProof3 GraphProof4 GraphProof5 GraphProof6.
From Coq Require Import Lia.

Definition others (v : nat) (l : list nat) := filter (fun u => negb (u =? v)) l.
Definition gsim (v : nat) (G G' : graph) :=
  g_nodes G = g_nodes G' /\ g_stock G = g_stock G' /\ g_default G = g_default G' /\
  others v (g_views G) = others v (g_views G').
Record sim (v : nat) (w w' : world) : Prop := mkSim {
  sim_lg : length (w_graphs w) = length (w_graphs w');
  sim_lv : length (w_views w) = length (w_views w');
  sim_v : forall i, i <> v -> nth_error (w_views w) i = nth_error (w_views w') i;
  sim_g : forall g G, nth_error (w_graphs w) g = Some G ->
          exists G', nth_error (w_graphs w') g = Some G' /\ gsim v G G'
}.
Lemma gsim_refl v G : gsim v G G. Proof. repeat split. Qed.
Lemma sim_refl v w : sim v w w.
Proof. constructor; auto. intros g G E. exists G. split; auto. apply gsim_refl. Qed.

Lemma in_others v l u : In u (others v l) <-> In u l /\ u <> v.
Proof. unfold others. rewrite filter_In, negb_true_iff, Nat.eqb_neq. tauto. Qed.
Lemma others_smem v l l' u : u <> v -> others v l = others v l' -> smem u l = smem u l'.
Proof.
  intros H E. apply eq_true_iff_eq. rewrite !smem_true.
  pose proof (in_others v l u) as A. pose proof (in_others v l' u) as B. rewrite E in A. tauto.
Qed.
Lemma others_app v a b : others v (a ++ b) = others v a ++ others v b.
Proof. apply filter_app. Qed.
Lemma others_lremove v l u : NoDup l -> u <> v -> others v (lremove u l) = lremove u (others v l).
Proof.
  intros ND H. induction l as [|x t IH]; cbn; auto. inversion ND; subst.
  destruct (u =? x) eqn:E.
  - apply Nat.eqb_eq in E. subst x. apply Nat.eqb_neq in H. rewrite H. cbn. now rewrite Nat.eqb_refl.
  - cbn. fold (others v t). fold (others v (lremove u t)). rewrite IH by auto.
    destruct (negb (x =? v)); cbn; [rewrite E|]; auto.
Qed.
Lemma others_lremove_v v l : NoDup l -> others v (lremove v l) = others v l.
Proof.
  induction l as [|x t IH]; cbn; auto. intros ND. inversion ND; subst.
  destruct (v =? x) eqn:E.
  - apply Nat.eqb_eq in E. subst x. rewrite Nat.eqb_refl. cbn. auto.
  - cbn. fold (others v t). fold (others v (lremove v t)). rewrite IH by auto. auto.
Qed.

(** what a successful notification does, view by view *)
Lemma notify_ok f vs : forall store store', NoDup vs -> notify f store vs = (store', Ok tt) ->
  length store' = length store /\
  forall i, nth_error store' i = if smem i vs then option_map (fun v => fst (f v)) (nth_error store i)
                                 else nth_error store i.
Proof.
  unfold notify. induction vs as [|i t IH]; intros store store' ND E; cbn [for_each] in E.
  - injection E as <-. auto.
  - inversion ND as [|? ? N1 N2]; subst.
    destruct (nth_error store i) as [V|] eqn:EV.
    + destruct (f V) as [V' [[]|]] eqn:EF; [|discriminate].
      apply IH in E; auto. rewrite upd_length in E. destruct E as [E1 E2]. split; auto.
      intros j. rewrite E2, nth_error_upd. cbn [smem existsb]. fold (smem j t). rewrite (Nat.eqb_sym j i).
      destruct (i =? j) eqn:Q; cbn [orb]; auto. apply Nat.eqb_eq in Q. subst j.
      rewrite (proj2 (smem_false _ _) N1). pose proof (nth_error_some_lt _ _ _ EV) as L.
      apply Nat.ltb_lt in L. rewrite L, EV. cbn. now rewrite EF.
    + apply IH in E; auto. destruct E as [E1 E2]. split; auto.
      intros j. rewrite E2. cbn [smem existsb]. fold (smem j t).
      destruct (j =? i) eqn:Q; cbn [orb]; auto. apply Nat.eqb_eq in Q. subst j.
      rewrite (proj2 (smem_false _ _) N1), EV. auto.
Qed.

Lemma notify_sim f v vs vs' s s' x x' : NoDup vs -> NoDup vs' -> others v vs = others v vs' ->
  length s = length s' -> (forall i, i <> v -> nth_error s i = nth_error s' i) ->
  notify f s vs = (x, Ok tt) -> notify f s' vs' = (x', Ok tt) ->
  length x = length x' /\ forall i, i <> v -> nth_error x i = nth_error x' i.
Proof.
  intros N1 N2 O L H E E'. apply notify_ok in E; auto. apply notify_ok in E'; auto.
  destruct E as [E1 E2], E' as [E1' E2']. split; [congruence|]. intros i Hi. rewrite E2, E2', H by auto.
  now rewrite (others_smem v vs vs' i Hi O).
Qed.

Lemma sim_put v w w' g G G' G1 G1' s s' : sim v w w' ->
  nth_error (w_graphs w) g = Some G -> nth_error (w_graphs w') g = Some G' ->
  gsim v G1 G1' -> length s = length s' -> (forall i, i <> v -> nth_error s i = nth_error s' i) ->
  sim v (mkW (upd (w_graphs w) g G1) s) (mkW (upd (w_graphs w') g G1') s').
Proof.
  intros [A B C D] E E' H L S. constructor; cbn; auto.
  - now rewrite !upd_length.
  - intros g0 G0. rewrite !nth_error_upd, <- A. destruct (g =? g0); [|auto].
    destruct (g <? length (w_graphs w)); [|discriminate]. intros [= <-]. eauto.
Qed.
Lemma sim_put_view v w w' u V : sim v w w' -> sim v (put_view w u V) (put_view w' u V).
Proof.
  intros [A B C D]. constructor; cbn; auto.
  - now rewrite !upd_length.
  - intros i Hi. rewrite !nth_error_upd, <- B, C; auto.
Qed.
Lemma upd_self {A} (l : list A) i x : nth_error l i = Some x -> upd l i x = l.
Proof.
  intros E. apply nth_error_ext. intros j. rewrite nth_error_upd. destruct (i =? j) eqn:Q; auto.
  apply Nat.eqb_eq in Q. subst j. pose proof (nth_error_some_lt _ _ _ E) as L. apply Nat.ltb_lt in L. now rewrite L.
Qed.

Lemma add_parts N dirty dirty' node deps :
  a_nodes (add_nodes_part N dirty node deps) = a_nodes (add_nodes_part N dirty' node deps) /\
  a_new (add_nodes_part N dirty node deps) = a_new (add_nodes_part N dirty' node deps) /\
  a_succ (add_nodes_part N dirty node deps) = a_succ (add_nodes_part N dirty' node deps).
Proof.
  unfold add_nodes_part.
  set (n0 := if dmem node N then [] else [node]). set (N0 := nodes_ensure N node). set (p := pc_of N0 node).
  assert (H : forall ds a a', a_nodes a = a_nodes a' -> a_new a = a_new a' -> a_succ a = a_succ a' -> a_pc a = a_pc a' ->
     let b := fold_left (add_dep node) ds a in let b' := fold_left (add_dep node) ds a' in
     a_nodes b = a_nodes b' /\ a_new b = a_new b' /\ a_succ b = a_succ b' /\ a_pc b = a_pc b').
  { induction ds as [|d t IH]; intros [] [] H1 H2 H3 H4; cbn in *; subst; auto.
    apply IH; unfold add_dep; cbn; destruct (smem node _); auto. }
  specialize (H deps (mkAdd N0 dirty p n0 []) (mkAdd N0 dirty' p n0 []) eq_refl eq_refl eq_refl eq_refl).
  cbn zeta in H. destruct H as (H1 & H2 & H3 & H4). cbn. rewrite H1, H2, H3, H4. auto.
Qed.

(** the cycle check sees the same answer whichever of the two dirty bits it reads *)
Lemma cycle_sim ord N d d' : NI N -> set_order ord ->
  (d = false -> acyclic (edgeP N)) -> (d' = false -> acyclic (edgeP N)) ->
  snd (g_cycle ord N d) = snd (g_cycle ord N d').
Proof.
  intros HN HO H H'.
  assert (X : forall x, acyclic (edgeP N) -> snd (g_cycle ord N x) = Ok None).
  { intros [] A; [|reflexivity]. destruct (cycle_spec N ord HN HO) as [[_ ->]|(c & C & _)]; auto.
    now apply is_cycle_not_acyclic in C. }
  destruct d, d'; auto; rewrite !X by auto; auto.
Qed.
Lemma check_sim ord N d d' : NI N -> set_order ord ->
  (d = false -> acyclic (edgeP N)) -> (d' = false -> acyclic (edgeP N)) ->
  snd (g_check ord N d) = snd (g_check ord N d').
Proof.
  intros HN HO H H'. destruct (check_spec N ord d HN HO H) as [[A ->]|(A & _ & ->)];
  destruct (check_spec N ord d' HN HO H') as [[B ->]|(B & _ & ->)]; tauto || auto.
Qed.

Lemma add_eff w g G node deps : NoDup (g_views G) -> forall x, g_add w g G node deps = (x, Ok tt) ->
  let a := add_nodes_part (g_nodes G) (g_dirty G) node deps in
  exists s1 s2, notify (fun v => (v_add_nodes v (a_new a), Ok tt)) (w_views w) (g_views G) = (s1, Ok tt) /\
    notify (fun v => for_each (fun v s => v_add_successor v s node) v (a_succ a)) s1 (g_views G) = (s2, Ok tt) /\
    x = mkW (upd (w_graphs w) g (set_dirty (set_nodes G (a_nodes a)) (a_dirty a))) s2.
Proof.
  intros ND x E a. unfold g_add in E. fold a in E.
  pose proof (add_eff_views (a_new a) (a_succ a) node (w_views w) (g_views G)) as EF.
  destruct (match a_new a with [] => _ | _ :: _ => _ end) as [st r].
  destruct (notify (fun v => (v_add_nodes v (a_new a), Ok tt)) (w_views w) (g_views G)) as [s1 r1].
  destruct r as [[]|]; [|discriminate].
  destruct (notify _ st (g_views G)) as [s2 [[]|]]; [|discriminate].
  injection E as <-. destruct r1 as [[]|]; [|discriminate]. exists s1, s2. auto.
Qed.

Ltac sim_graph S EG G' EG' GS :=
  destruct (sim_g _ _ _ S _ _ EG) as (G' & EG' & GS).

Theorem sim_step v h h' w w' ord o x r : sim v w w' -> WI h w -> WI h' w' -> set_order ord ->
  view_known h v -> view_known h' v -> ~ about_view v o -> good_call h o -> good_call h' o ->
  step ord w o = (x, r) -> exists x', step ord w' o = (x', r) /\ sim v x x'.
Proof.
  intros S W W' HO K K' NA Gc Gc' E.
  assert (NS : forall g G, nth_error (w_graphs w) g = Some G -> g_stock G <> v).
  { intros g G EG Q. apply (gr_stock _ _ _ _ (wi_graph _ _ W g G EG)). now rewrite Q. }
  destruct o; cbn [good_call about_view] in *; try (destruct Gc; fail); cbn [step] in *.
  - (* new graph *)
    injection E as <- <-. rewrite <- (sim_lg _ _ _ S), <- (sim_lv _ _ _ S). eexists. split; [reflexivity|].
    destruct S as [A B C D]. unfold new_graph. rewrite <- A, <- B. constructor; cbn.
    + rewrite !app_length. cbn. lia.
    + rewrite !app_length. cbn. lia.
    + intros i Hi. destruct (Nat.lt_ge_cases i (length (w_views w))) as [L|L].
      * rewrite !nth_error_app1 by lia. auto.
      * rewrite !nth_error_app2 by lia. now rewrite B.
    + intros g G. destruct (Nat.lt_ge_cases g (length (w_graphs w))) as [L|L].
      * rewrite !nth_error_app1 by lia. auto.
      * rewrite !nth_error_app2 by lia. rewrite A. intros ->. eexists. split; eauto. apply gsim_refl.
  - (* add *)
    destruct (known_graph_get _ _ _ W Gc) as (G & EG & GR). unfold with_graph in *. rewrite EG in E.
    destruct (sim_g _ _ _ S _ _ EG) as (G' & EG' & S1 & S2 & S3 & S4). rewrite EG'.
    pose proof (wi_graph _ _ W' _ _ EG') as GR'.
    destruct (WI_add h w g G n deps W EG) as (x1 & E1 & _).
    destruct (WI_add h' w' g G' n deps W' EG') as (x2 & E2 & _).
    rewrite E1 in E. rewrite E2. injection E as <- <-. eexists. split; [reflexivity|].
    destruct (add_eff w g G n deps (gr_nd _ _ _ _ GR) x1 E1) as (s1 & s2 & N1 & N2 & ->).
    destruct (add_eff w' g G' n deps (gr_nd _ _ _ _ GR') x2 E2) as (s1' & s2' & N1' & N2' & ->).
    destruct (add_parts (g_nodes G) (g_dirty G) (g_dirty G') n deps) as (P1 & P2 & P3).
    rewrite <- S1, <- P2 in N1'. rewrite <- S1, <- P3 in N2'.
    destruct (notify_sim _ v _ _ _ _ _ _ (gr_nd _ _ _ _ GR) (gr_nd _ _ _ _ GR') S4 (sim_lv _ _ _ S) (sim_v _ _ _ S) N1 N1') as [L1 V1].
    destruct (notify_sim _ v _ _ _ _ _ _ (gr_nd _ _ _ _ GR) (gr_nd _ _ _ _ GR') S4 L1 V1 N2 N2') as [L2 V2].
    eapply sim_put; eauto. unfold gsim; cbn [g_nodes g_stock g_default g_views set_views set_dirty set_nodes]. rewrite <- S1. auto.
  - (* remove *)
    destruct (known_graph_get _ _ _ W Gc) as (G & EG & GR). unfold with_graph in *. rewrite EG in E.
    destruct (sim_g _ _ _ S _ _ EG) as (G' & EG' & S1 & S2 & S3 & S4). rewrite EG'.
    pose proof (wi_graph _ _ W' _ _ EG') as GR'.
    destruct (in_dec Nat.eq_dec n (dkeys (g_nodes G))) as [I|I].
    + destruct (WI_remove h w g G n W EG I) as (x1 & E1 & _).
      assert (I' : In n (dkeys (g_nodes G'))) by congruence.
      destruct (WI_remove h' w' g G' n W' EG' I') as (x2 & E2 & _).
      rewrite E1 in E. rewrite E2. injection E as <- <-. eexists. split; [reflexivity|].
      unfold g_remove in E1, E2. rewrite (proj2 (dmem_true _ _) I) in E1. rewrite (proj2 (dmem_true _ _) I') in E2.
      cbn [negb] in *. rewrite <- S1 in E2. destruct (remove_nodes_part (g_nodes G) n) as [N ss].
      destruct (notify _ (w_views w) (g_views G)) as [s1 r1] eqn:N1.
      destruct (notify _ (w_views w') (g_views G')) as [s1' r1'] eqn:N1'.
      injection E1 as <- ->. injection E2 as <- ->.
      destruct (notify_sim _ v _ _ _ _ _ _ (gr_nd _ _ _ _ GR) (gr_nd _ _ _ _ GR') S4 (sim_lv _ _ _ S) (sim_v _ _ _ S) N1 N1') as [L1 V1].
      eapply sim_put; eauto. unfold gsim; cbn [g_nodes g_stock g_default g_views set_views set_dirty set_nodes]. auto.
    + unfold g_remove in *. rewrite <- S1. rewrite (proj2 (dmem_false _ _) I) in *. cbn in *. injection E as <- <-. eauto.
  - (* view *)
    destruct (known_graph_get _ _ _ W Gc) as (G & EG & GR). unfold with_graph in *. rewrite EG in E.
    destruct (sim_g _ _ _ S _ _ EG) as (G' & EG' & S1 & S2 & S3 & S4). rewrite EG'.
    unfold copy_view in *. rewrite <- S2, <- (sim_v _ _ _ S) by eauto.
    destruct (gr_sv _ _ _ _ GR) as (Sv & ES & SR). rewrite ES in *. rewrite (sr_graph _ _ _ SR) in *.
    rewrite EG in E. rewrite EG'. injection E as <- <-. rewrite <- (sim_lv _ _ _ S).
    eexists. split; [reflexivity|]. eapply sim_put; eauto.
    + unfold gsim; cbn [g_nodes g_stock g_default g_views set_views set_dirty set_nodes]. rewrite !others_app, S4. auto.
    + rewrite !app_length, (sim_lv _ _ _ S). auto.
    + intros i Hi. destruct (Nat.lt_ge_cases i (length (w_views w))) as [L|L].
      * rewrite !nth_error_app1 by (rewrite <- ?(sim_lv _ _ _ S); lia). apply S; auto.
      * rewrite !nth_error_app2 by (rewrite <- ?(sim_lv _ _ _ S); lia). now rewrite (sim_lv _ _ _ S).
  - (* len *)
    destruct (known_graph_get _ _ _ W Gc) as (G & EG & GR). unfold with_graph in *. rewrite EG in E.
    destruct (sim_g _ _ _ S _ _ EG) as (G' & EG' & S1 & S2 & S3 & S4). rewrite EG', <- S1. injection E as <- <-. eauto.
  - (* cycle *)
    destruct (known_graph_get _ _ _ W Gc) as (G & EG & GR). unfold with_graph in *. rewrite EG in E.
    destruct (sim_g _ _ _ S _ _ EG) as (G' & EG' & S1 & S2 & S3 & S4). rewrite EG'.
    pose proof (wi_graph _ _ W' _ _ EG') as GR'.
    pose proof (cycle_sim ord (g_nodes G) (g_dirty G) (g_dirty G') (gr_ni _ _ _ _ GR) HO (gr_dirty _ _ _ _ GR)) as Q.
    rewrite S1 in Q at 1. specialize (Q (gr_dirty _ _ _ _ GR')). rewrite <- S1.
    destruct (g_cycle ord (g_nodes G) (g_dirty G)) as [d1 r1], (g_cycle ord (g_nodes G) (g_dirty G')) as [d2 r2].
    cbn in Q. subst r2. injection E as <- <-. eexists. split; [reflexivity|].
    eapply sim_put; eauto; try apply S. unfold gsim; cbn [g_nodes g_stock g_default g_views set_views set_dirty set_nodes]. auto.
  - (* check *)
    destruct (known_graph_get _ _ _ W Gc) as (G & EG & GR). unfold with_graph in *. rewrite EG in E.
    destruct (sim_g _ _ _ S _ _ EG) as (G' & EG' & S1 & S2 & S3 & S4). rewrite EG'.
    pose proof (wi_graph _ _ W' _ _ EG') as GR'.
    pose proof (check_sim ord (g_nodes G) (g_dirty G) (g_dirty G') (gr_ni _ _ _ _ GR) HO (gr_dirty _ _ _ _ GR)) as Q.
    rewrite S1 in Q at 1. specialize (Q (gr_dirty _ _ _ _ GR')). rewrite <- S1.
    destruct (g_check ord (g_nodes G) (g_dirty G)) as [d1 r1], (g_check ord (g_nodes G) (g_dirty G')) as [d2 r2].
    cbn in Q. subst r2. injection E as <- <-. eexists. split; [reflexivity|].
    eapply sim_put; eauto; try apply S. unfold gsim; cbn [g_nodes g_stock g_default g_views set_views set_dirty set_nodes]. auto.
  - (* ready *)
    unfold with_open in *. rewrite <- (sim_v _ _ _ S) by auto.
    destruct (nth_error (w_views w) v0) as [V|]; [|injection E as <- <-; eauto].
    destruct (v_graph V) as [gi|]; [|injection E as <- <-; eauto]. unfold with_graph in *.
    destruct (nth_error (w_graphs w) gi) as [G|] eqn:EG.
    2:{ injection E as <- <-. assert (Q : nth_error (w_graphs w') gi = None).
        { apply nth_error_None. rewrite <- (sim_lg _ _ _ S). now apply nth_error_None. }
        rewrite Q. eauto. }
    destruct (sim_g _ _ _ S _ _ EG) as (G' & EG' & S1 & S2 & S3 & S4). rewrite EG'.
    pose proof (wi_graph _ _ W _ _ EG) as GR. pose proof (wi_graph _ _ W' _ _ EG') as GR'.
    unfold no_conflict in *. destruct (v_conf V); [|injection E as <- <-; eauto].
    pose proof (check_sim ord (g_nodes G) (g_dirty G) (g_dirty G') (gr_ni _ _ _ _ GR) HO (gr_dirty _ _ _ _ GR)) as Q.
    rewrite S1 in Q at 1. specialize (Q (gr_dirty _ _ _ _ GR')). rewrite <- S1.
    destruct (g_check ord (g_nodes G) (g_dirty G)) as [d1 r1], (g_check ord (g_nodes G) (g_dirty G')) as [d2 r2].
    cbn in Q. subst r2. destruct r1; injection E as <- <-; (eexists; split; [reflexivity|]).
    + apply sim_put_view. eapply sim_put; eauto; try apply S. unfold gsim; cbn [g_nodes g_stock g_default g_views set_views set_dirty set_nodes]. auto.
    + eapply sim_put; eauto; try apply S. unfold gsim; cbn [g_nodes g_stock g_default g_views set_views set_dirty set_nodes]. auto.
  - (* done *)
    unfold with_open in *. rewrite <- (sim_v _ _ _ S) by auto.
    destruct (nth_error (w_views w) v0) as [V|]; [|injection E as <- <-; eauto].
    destruct (v_graph V) as [gi|]; [|injection E as <- <-; eauto]. unfold with_graph in *.
    destruct (nth_error (w_graphs w) gi) as [G|] eqn:EG.
    2:{ injection E as <- <-. assert (Q : nth_error (w_graphs w') gi = None).
        { apply nth_error_None. rewrite <- (sim_lg _ _ _ S). now apply nth_error_None. }
        rewrite Q. eauto. }
    destruct (sim_g _ _ _ S _ _ EG) as (G' & EG' & S1 & S2 & S3 & S4). rewrite EG'.
    unfold no_conflict in *. destruct (v_conf V); [|injection E as <- <-; eauto].
    rewrite <- S1. destruct (v_do_done (g_nodes G) V ns). injection E as <- <-. eexists. split; [reflexivity|].
    apply sim_put_view; auto.
  - (* bool *)
    unfold with_open in *. rewrite <- (sim_v _ _ _ S) by auto.
    destruct (nth_error (w_views w) v0) as [V|]; [|injection E as <- <-; eauto].
    destruct (v_graph V) as [gi|]; [|injection E as <- <-; eauto]. unfold with_graph in *.
    destruct (nth_error (w_graphs w) gi) as [G|] eqn:EG.
    2:{ injection E as <- <-. assert (Q : nth_error (w_graphs w') gi = None).
        { apply nth_error_None. rewrite <- (sim_lg _ _ _ S). now apply nth_error_None. }
        rewrite Q. eauto. }
    destruct (sim_g _ _ _ S _ _ EG) as (G' & EG' & S1 & S2 & S3 & S4). rewrite EG'.
    unfold no_conflict in *. destruct (v_conf V); [|injection E as <- <-; eauto].
    rewrite <- S1. injection E as <- <-. eauto.
  - (* reset *)
    unfold with_open in *. rewrite <- (sim_v _ _ _ S) by auto.
    destruct (nth_error (w_views w) v0) as [V|]; [|injection E as <- <-; eauto].
    destruct (v_graph V) as [gi|]; [|injection E as <- <-; eauto]. unfold with_graph in *.
    destruct (nth_error (w_graphs w) gi) as [G|] eqn:EG.
    2:{ injection E as <- <-. assert (Q : nth_error (w_graphs w') gi = None).
        { apply nth_error_None. rewrite <- (sim_lg _ _ _ S). now apply nth_error_None. }
        rewrite Q. eauto. }
    destruct (sim_g _ _ _ S _ _ EG) as (G' & EG' & S1 & S2 & S3 & S4). rewrite EG'.
    rewrite <- S2, <- (sim_v _ _ _ S) by eauto.
    destruct (nth_error (w_views w) (g_stock G)); injection E as <- <-; (eexists; split; [reflexivity|]); auto.
    apply sim_put_view; auto.
  - (* close *)
    unfold with_open in *. rewrite <- (sim_v _ _ _ S) by auto.
    destruct (nth_error (w_views w) v0) as [V|]; [|injection E as <- <-; eauto].
    destruct (v_graph V) as [gi|]; [|injection E as <- <-; eauto]. unfold with_graph in *.
    destruct (nth_error (w_graphs w) gi) as [G|] eqn:EG.
    2:{ injection E as <- <-. assert (Q : nth_error (w_graphs w') gi = None).
        { apply nth_error_None. rewrite <- (sim_lg _ _ _ S). now apply nth_error_None. }
        rewrite Q. eauto. }
    destruct (sim_g _ _ _ S _ _ EG) as (G' & EG' & S1 & S2 & S3 & S4). rewrite EG'.
    pose proof (wi_graph _ _ W _ _ EG) as GR. pose proof (wi_graph _ _ W' _ _ EG') as GR'.
    rewrite <- (others_smem v _ _ v0 NA S4). destruct (smem v0 (g_views G)); injection E as <- <-; (eexists; split; [reflexivity|]); auto.
    apply sim_put_view. eapply sim_put; eauto; try apply S. unfold gsim; cbn [g_nodes g_stock g_default g_views set_views set_dirty set_nodes].
    rewrite !others_lremove, S4 by (auto; apply GR || apply GR'). auto.
  - (* view copy *)
    unfold copy_view in *. rewrite <- (sim_v _ _ _ S) by auto.
    destruct (nth_error (w_views w) v0) as [V|]; [|injection E as <- <-; eauto].
    destruct (v_graph V) as [gi|]; [|injection E as <- <-; eauto].
    destruct (nth_error (w_graphs w) gi) as [G|] eqn:EG.
    2:{ injection E as <- <-. assert (Q : nth_error (w_graphs w') gi = None).
        { apply nth_error_None. rewrite <- (sim_lg _ _ _ S). now apply nth_error_None. }
        rewrite Q. eauto. }
    destruct (sim_g _ _ _ S _ _ EG) as (G' & EG' & S1 & S2 & S3 & S4). rewrite EG'.
    injection E as <- <-. rewrite <- (sim_lv _ _ _ S).
    eexists. split; [reflexivity|]. eapply sim_put; eauto.
    + unfold gsim; cbn [g_nodes g_stock g_default g_views set_views set_dirty set_nodes]. rewrite !others_app, S4. auto.
    + rewrite !app_length, (sim_lv _ _ _ S). auto.
    + intros i Hi. destruct (Nat.lt_ge_cases i (length (w_views w))) as [L|L].
      * rewrite !nth_error_app1 by (rewrite <- ?(sim_lv _ _ _ S); lia). apply S; auto.
      * rewrite !nth_error_app2 by (rewrite <- ?(sim_lv _ _ _ S); lia). now rewrite (sim_lv _ _ _ S).
Qed.

(** the facts the caller's obligations are about, for views other than [v] *)
Record same_for (v : nat) (h h' : history) : Prop := mkSF {
  sf_g : forall g, graph_known h g <-> graph_known h' g;
  sf_v : forall u, view_known h u <-> view_known h' u;
  sf_on : forall u g, u <> v -> view_on h u g <-> view_on h' u g;
  sf_h : forall u n, u <> v -> handed h u n <-> handed h' u n;
  sf_d : forall u n, u <> v -> is_done h u n <-> is_done h' u n
}.
Lemma same_cons v h h' o r : same_for v h h' -> ~ about_view v o -> same_for v ((o, r) :: h) ((o, r) :: h').
Proof.
  intros [A B C D F] NA. constructor.
  - intros g. unfold graph_known in *. cbn. split; intros (o' & d & [E|E]); eauto.
    + destruct (proj1 (A g)) as (? & ? & ?); eauto 6.
    + destruct (proj2 (A g)) as (? & ? & ?); eauto 6.
  - intros u. unfold view_known in *. cbn. specialize (B u). split.
    + intros [(o' & d & [E|E])|(o' & [E|E])]; eauto.
      * destruct (proj1 B) as [(? & ? & ?)|(? & ?)]; eauto 6.
      * destruct (proj1 B) as [(? & ? & ?)|(? & ?)]; eauto 6.
    + intros [(o' & d & [E|E])|(o' & [E|E])]; eauto.
      * destruct (proj2 B) as [(? & ? & ?)|(? & ?)]; eauto 6.
      * destruct (proj2 B) as [(? & ? & ?)|(? & ?)]; eauto 6.
  - intros u g Hu. pose proof (C u g Hu).
    destruct o, r as [[]|]; cbn; try tauto. cbn in NA. pose proof (C v0 g NA). tauto.
  - intros u n Hu. pose proof (D u n Hu). pose proof (C u).
    destruct o, r as [[]|]; cbn in *; try tauto;
    try (specialize (H0 g Hu); tauto); pose proof (D v0 n NA); tauto.
  - intros u n Hu. pose proof (F u n Hu). pose proof (C u).
    destruct o, r as [[]|]; cbn in *; try tauto;
    try (specialize (H0 g Hu); tauto); pose proof (F v0 n NA); tauto.
Qed.
Lemma same_good_call v h h' o : same_for v h h' -> ~ about_view v o -> good_call h o -> good_call h' o.
Proof.
  intros [A B C D F] NA. destruct o; cbn in *; auto; try apply A; try apply B.
  intros (H1 & H2 & H3). split; [apply B; auto|]. split; auto. intros n Hn. rewrite <- D, <- F by auto. auto.
Qed.

Lemma play_good l : forall h w, good (fst (play l h w)) -> good h.
Proof.
  induction l as [|[ord o] t IH]; intros h w; cbn; auto. destruct (step ord w o) as [w' r].
  intros H. apply IH in H. cbn in H. tauto.
Qed.

Lemma sim_play v l : forall h h' w w', sim v w w' -> WI h w -> WI h' w' -> same_for v h h' ->
  view_known h v -> view_known h' v ->
  (forall ord o, In (ord, o) l -> set_order ord /\ ~ about_view v o) ->
  good (fst (play l h w)) -> results l w' = results l w.
Proof.
  induction l as [|[ord o] t IH]; intros h h' w w' S W W' SF K K' Hl G; cbn in *; auto.
  destruct (Hl ord o (or_introl eq_refl)) as [HO NA].
  destruct (step ord w o) as [x r] eqn:E.
  pose proof (play_good _ _ _ G) as [Gc _].
  pose proof (same_good_call _ _ _ _ SF NA Gc) as Gc'.
  destruct (sim_step v h h' w w' ord o x r S W W' HO K K' NA Gc Gc' E) as (x' & E' & S').
  rewrite E'. f_equal. apply (IH ((o, r) :: h) ((o, r) :: h') x x'); auto.
  - eapply WI_step; eauto.
  - eapply WI_step; eauto.
  - apply same_cons; auto.
  - unfold view_known in *. cbn. destruct K as [(? & ? & ?)|(? & ?)]; eauto 6.
  - unfold view_known in *. cbn. destruct K' as [(? & ? & ?)|(? & ?)]; eauto 6.
Qed.

(** a call on [v] itself *)
Lemma sim_self v h w ord o x r : WI h w -> about_view v o -> (forall u, o <> OViewCopy u) -> step ord w o = (x, r) ->
  sim v w x.
Proof.
  intros W Ha NC E. assert (Refl := sim_refl v w).
  assert (PV : forall V, sim v w (put_view w v V)).
  { intros V. constructor; cbn; auto.
    - now rewrite upd_length.
    - intros i Hi. rewrite nth_error_upd. destruct (v =? i) eqn:Q; auto. apply Nat.eqb_eq in Q. congruence.
    - intros g G EG. exists G. split; auto. apply gsim_refl. }
  assert (PG : forall y g G G', sim v w y -> w_graphs y = w_graphs w -> nth_error (w_graphs w) g = Some G -> gsim v G G' ->
     sim v w (put_graph y g G')).
  { intros y g G G' [A B C D] EY EG GS. constructor; cbn; auto.
    - now rewrite upd_length.
    - intros g0 G0 EG0. rewrite nth_error_upd, EY. pose proof (nth_error_some_lt _ _ _ EG0) as L.
      destruct (g =? g0) eqn:Q; [|exists G0; split; auto; apply gsim_refl].
      apply Nat.eqb_eq in Q. subst g0. rewrite EG in EG0. injection EG0 as <-.
      apply Nat.ltb_lt in L. rewrite L. eauto. }
  destruct o; cbn in Ha; try (destruct Ha; fail); subst; try (exfalso; eapply NC; reflexivity); cbn [step] in E;
    unfold with_open in E; (destruct (nth_error (w_views w) v) as [V|]; [|injection E as <- <-; auto]);
    (destruct (v_graph V) as [gi|]; [|injection E as <- <-; auto]); unfold with_graph in E;
    (destruct (nth_error (w_graphs w) gi) as [G|] eqn:EG; [|injection E as <- <-; auto]); unfold no_conflict in E;
    pose proof (wi_graph _ _ W _ _ EG) as GR.
  - destruct (v_conf V); [|injection E as <- <-; auto].
    destruct (g_check ord (g_nodes G) (g_dirty G)) as [d [|]]; injection E as <- <-.
    + match goal with |- sim v w (put_view _ v ?X) =>
        apply (PG (put_view w v X) gi G (set_dirty G d)); auto end. unfold gsim; cbn [g_nodes g_stock g_default g_views set_views set_dirty set_nodes]. auto.
    + eapply PG; eauto. unfold gsim; cbn [g_nodes g_stock g_default g_views set_views set_dirty set_nodes]. auto.
  - destruct (v_conf V); [|injection E as <- <-; auto]. destruct (v_do_done (g_nodes G) V ns). injection E as <- <-. auto.
  - destruct (v_conf V); injection E as <- <-; auto.
  - destruct (nth_error (w_views w) (g_stock G)); injection E as <- <-; auto.
  - destruct (smem v (g_views G)); injection E as <- <-; auto.
    apply (PG (put_view w v v_closed) gi G (set_views G (lremove v (g_views G)))); auto. unfold gsim; cbn [g_nodes g_stock g_default g_views set_views set_dirty set_nodes]. rewrite others_lremove_v by apply GR. auto.
Qed.

Lemma same_self v h w ord o x r : WI h w -> set_order ord -> good_call h o ->
  about_view v o -> (forall u, o <> OViewCopy u) -> step ord w o = (x, r) ->
  same_for v h ((o, r) :: h).
Proof.
  intros W HO Gc Ha NC E. destruct (WI_step _ _ _ _ _ _ W HO Gc E) as [_ An].
  assert (Nw : new_obj r = false).
  { destruct o; cbn in Ha; try (destruct Ha; fail); try (exfalso; eapply NC; reflexivity); cbn in An.
    - destruct An as [[_ ->]|(g & _ & [[_ ->]|[(_ & _ & ->)|(_ & _ & l & -> & _)]])]; auto.
    - destruct An as [[_ ->]|(_ & [[_ ->]|[_ ->]])]; auto.
    - destruct An as [[_ ->]|(g & _ & [[_ ->]|(_ & b & -> & _)])]; auto.
    - destruct An as [[_ ->]|[_ ->]]; auto.
    - destruct An as [[_ ->]|[_ ->]]; auto. }
  constructor.
  - intros g. now rewrite known_graph_same.
  - intros u. now rewrite known_view_same.
  - intros u g Hu. destruct o; cbn in Ha; try (destruct Ha; fail); try (exfalso; eapply NC; reflexivity); subst;
      destruct r as [[]|]; cbn in Nw; try discriminate; cbn; tauto.
  - intros u n Hu. destruct o; cbn in Ha; try (destruct Ha; fail); try (exfalso; eapply NC; reflexivity); subst;
      destruct r as [[]|]; cbn in Nw; try discriminate; cbn; intuition congruence.
  - intros u n Hu. destruct o; cbn in Ha; try (destruct Ha; fail); try (exfalso; eapply NC; reflexivity); subst;
      destruct r as [[]|]; cbn in Nw; try discriminate; cbn; intuition congruence.
Qed.

Theorem views_independent h w v ord o x r l : run h w -> good h -> set_order ord -> good_call h o ->
  view_known h v -> about_view v o -> (forall u, o <> OViewCopy u) -> step ord w o = (x, r) ->
  (forall ord o, In (ord, o) l -> set_order ord /\ ~ about_view v o) ->
  good (fst (play l h w)) -> results l x = results l w.
Proof.
  intros R G HO Gc K Ha NC E Hl Gp. pose proof (run_WI _ _ R G) as W.
  destruct (WI_step _ _ _ _ _ _ W HO Gc E) as [W' _].
  apply (sim_play v l h ((o, r) :: h) w x); auto.
  - eapply sim_self; eauto.
  - eapply same_self; eauto.
  - unfold view_known in *. cbn. destruct K as [(? & ? & ?)|(? & ?)]; eauto 6.
Qed.
