(** The graph part of add() and remove(): nodes, edges, predecessor counts. *)
From Verif Require Import PyBase PyBaseProof PyDict PyDictProof GraphModel.
From Coq Require Import Lia.

Definition edge (N : nodes_t) (d n : nat) : bool := smem n (succs_of N d).

Lemma succs_of_dset N k p s d : succs_of (dset N k (p, s)) d = if d =? k then s else succs_of N d.
Proof. unfold succs_of. rewrite dget_dset. destruct (d =? k); auto. Qed.
Lemma pc_of_dset N k p s d : pc_of (dset N k (p, s)) d = if d =? k then p else pc_of N d.
Proof. unfold pc_of. rewrite dget_dset. destruct (d =? k); auto. Qed.
Lemma succs_of_notin N d : ~ In d (dkeys N) -> succs_of N d = [].
Proof. intros H. apply dget_none in H. unfold succs_of. now rewrite H. Qed.
Lemma pc_of_notin N d : ~ In d (dkeys N) -> pc_of N d = 0%Z.
Proof. intros H. apply dget_none in H. unfold pc_of. now rewrite H. Qed.
Lemma edge_key N d n : edge N d n = true -> In d (dkeys N).
Proof.
  unfold edge. intros H. destruct (in_dec Nat.eq_dec d (dkeys N)); auto.
  rewrite succs_of_notin in H; auto. discriminate.
Qed.
Lemma edge_succ N d n : edge N d n = true <-> In n (succs_of N d).
Proof. apply smem_true. Qed.

Lemma succs_ensure N n d : succs_of (nodes_ensure N n) d = succs_of N d.
Proof.
  unfold nodes_ensure. destruct (dmem n N) eqn:E; auto. apply dmem_false in E.
  rewrite succs_of_dset. destruct (d =? n) eqn:F; auto. apply Nat.eqb_eq in F. subst.
  now rewrite succs_of_notin.
Qed.
Lemma pc_ensure N n d : pc_of (nodes_ensure N n) d = pc_of N d.
Proof.
  unfold nodes_ensure. destruct (dmem n N) eqn:E; auto. apply dmem_false in E.
  rewrite pc_of_dset. destruct (d =? n) eqn:F; auto. apply Nat.eqb_eq in F. subst.
  now rewrite pc_of_notin.
Qed.
Lemma edge_ensure N n d x : edge (nodes_ensure N n) d x = edge N d x.
Proof. unfold edge. now rewrite succs_ensure. Qed.
Lemma keys_ensure N n : dkeys (nodes_ensure N n) = dkeys N ++ (if dmem n N then [] else [n]).
Proof.
  unfold nodes_ensure. destruct (dmem n N) eqn:E; [now rewrite app_nil_r|].
  apply dkeys_dset_new. now apply dmem_false.
Qed.
Lemma nodup_ensure N n : NoDup (dkeys N) -> NoDup (dkeys (nodes_ensure N n)).
Proof. unfold nodes_ensure. destruct (dmem n N); auto using nodup_dset. Qed.
Lemma in_keys_ensure N n x : In x (dkeys (nodes_ensure N n)) <-> In x (dkeys N) \/ x = n.
Proof.
  rewrite keys_ensure, in_app_iff. destruct (dmem n N) eqn:E; cbn; [|intuition].
  apply dmem_true in E. intuition (subst; auto).
Qed.

(** the predecessor counts are right, with [pc] standing for the count of [node] *)
Definition counts_ok (N : nodes_t) (node : nat) (pc : Z) : Prop :=
  forall n, In n (dkeys N) ->
    (if n =? node then pc else pc_of N n) = Z.of_nat (cnt (dkeys N) (fun d => edge N d n)).
Record NI (N : nodes_t) : Prop := mkNI {
  ni_keys : NoDup (dkeys N);
  ni_succs : forall d, NoDup (succs_of N d);
  ni_closed : forall d n, edge N d n = true -> In n (dkeys N);
  ni_counts : forall n, In n (dkeys N) -> pc_of N n = Z.of_nat (cnt (dkeys N) (fun d => edge N d n))
}.
Lemma NI_nil : NI [].
Proof. constructor; cbn; try constructor; try easy. Qed.

Lemma cnt_edge_new_zero N n : (forall d, edge N d n = true -> In n (dkeys N)) -> ~ In n (dkeys N) ->
  forall K, cnt K (fun d => edge N d n) = 0.
Proof.
  intros H I K. apply cnt_zero. intros x _. destruct (edge N x n) eqn:E; auto. apply H in E. tauto.
Qed.

Record AI (N : nodes_t) (dirty : bool) (node : nat) (ps : list nat) (a : add_st) : Prop := mkAI {
  ai_keys : dkeys (a_nodes a) = dkeys N ++ a_new a;
  ai_nodup : NoDup (dkeys (a_nodes a));
  ai_in : forall x, In x (dkeys (a_nodes a)) <-> In x (dkeys N) \/ x = node \/ In x ps;
  ai_edge : forall d n, edge (a_nodes a) d n = true <-> edge N d n = true \/ (n = node /\ In d ps);
  ai_snd : forall d, NoDup (succs_of (a_nodes a) d);
  ai_succ_nd : NoDup (a_succ a);
  ai_succ : forall d, In d (a_succ a) <-> In d ps /\ edge N d node = false;
  ai_dirty : a_dirty a = dirty || match a_succ a with [] => false | _ => true end;
  ai_counts : counts_ok (a_nodes a) node (a_pc a)
}.

Lemma counts_ensure N n node pc :
  (forall d x, edge N d x = true -> In x (dkeys N)) -> In node (dkeys N) ->
  counts_ok N node pc -> counts_ok (nodes_ensure N n) node pc.
Proof.
  intros C Hn H x Hx. rewrite pc_ensure.
  rewrite (cnt_ext _ _ (fun d => edge N d x)) by (intros; apply edge_ensure).
  rewrite keys_ensure, cnt_app. apply in_keys_ensure in Hx.
  destruct (in_dec Nat.eq_dec x (dkeys N)) as [I|I].
  - rewrite (H x I). destruct (dmem n N) eqn:E; [cbn; lia|].
    apply dmem_false in E. rewrite cnt_cons.
    replace (edge N n x) with false.
    + cbn. lia.
    + unfold edge. now rewrite succs_of_notin.
  - destruct Hx as [|<-]; [tauto|].
    destruct (x =? node) eqn:F; [apply Nat.eqb_eq in F; subst; tauto|].
    rewrite pc_of_notin by auto. rewrite !(cnt_edge_new_zero N x (fun d => C d x) I); auto.
Qed.

Lemma add_dep_AI N dirty node ps a d : NI N -> AI N dirty node ps a ->
  AI N dirty node (ps ++ [d]) (add_dep node a d).
Proof.
  intros HN H. destruct H.
  assert (Cl : forall d x, edge (a_nodes a) d x = true -> In x (dkeys (a_nodes a))).
  { intros d0 x Hx. apply ai_in0. apply ai_edge0 in Hx. destruct Hx as [Hx|[-> Hx]]; auto.
    left. eapply ni_closed; eauto. }
  assert (Hnode : In node (dkeys (a_nodes a))) by (apply ai_in0; auto).
  pose proof (counts_ensure (a_nodes a) d node (a_pc a) Cl Hnode ai_counts0) as CE.
  unfold add_dep. set (N1 := nodes_ensure (a_nodes a) d) in *.
  assert (K1 : dkeys N1 = dkeys N ++ (if dmem d (a_nodes a) then a_new a else a_new a ++ [d])).
  { unfold N1. rewrite keys_ensure, ai_keys0. destruct (dmem d (a_nodes a)).
    - now rewrite app_nil_r. - now rewrite app_assoc. }
  assert (In1 : forall x, In x (dkeys N1) <-> In x (dkeys N) \/ x = node \/ In x (ps ++ [d])).
  { intros x. unfold N1. rewrite in_keys_ensure, ai_in0, in_app_iff. cbn. intuition. }
  assert (E1 : forall x y, edge N1 x y = edge (a_nodes a) x y) by (intros; apply edge_ensure).
  assert (S1 : forall x, succs_of N1 x = succs_of (a_nodes a) x) by (intros; apply succs_ensure).
  assert (ND1 : NoDup (dkeys N1)) by (apply nodup_ensure; auto).
  assert (Dk : In d (dkeys N1)) by (apply In1; rewrite in_app_iff; cbn; auto).
  change (smem node (succs_of N1 d)) with (edge N1 d node). rewrite E1.
  destruct (edge (a_nodes a) d node) eqn:Ed.
  - constructor; cbn [a_nodes a_new a_dirty a_pc a_succ]; auto.
    + intros x y. rewrite E1, ai_edge0, in_app_iff. cbn. split; [intuition|].
      intros [Q|[-> [Q|[<-|[]]]]]; auto. apply ai_edge0 in Ed. auto.
    + intros x. rewrite S1. auto.
    + intros x. rewrite ai_succ0, in_app_iff. cbn. split; [intuition|].
      intros [[Q|[<-|[]]] F]; auto. apply ai_edge0 in Ed. destruct Ed as [Ed|[_ Ed]]; [congruence|auto].
  - assert (Ed' : edge N d node = false /\ ~ In d ps).
    { split.
      - destruct (edge N d node) eqn:F; auto. rewrite (proj2 (ai_edge0 d node)) in Ed; auto. 
      - intros F. rewrite (proj2 (ai_edge0 d node)) in Ed; [discriminate|auto]. }
    destruct Ed' as [EdN Edp].
    set (N2 := dset N1 d (pc_of N1 d, succs_of N1 d ++ [node])).
    assert (K2 : dkeys N2 = dkeys N1) by (apply dkeys_dset_in; auto).
    assert (E2 : forall x y, edge N2 x y = edge N1 x y || ((x =? d) && (y =? node))).
    { intros x y. unfold N2, edge. rewrite succs_of_dset. destruct (x =? d) eqn:F; cbn.
      - apply Nat.eqb_eq in F. subst. unfold smem. rewrite existsb_app. cbn.
        now rewrite orb_false_r.
      - now rewrite orb_false_r. }
    assert (C2 : counts_ok N2 node (a_pc a + 1)).
    { intros x Hx. rewrite K2 in Hx. rewrite K2. unfold N2 at 1. rewrite pc_of_dset.
      specialize (CE x Hx). destruct (x =? node) eqn:F.
      - apply Nat.eqb_eq in F. subst x.
        rewrite (cnt_flip (dkeys N1) (fun d => edge N1 d node) _ d); auto.
        + lia.
        + rewrite E1. auto.
        + rewrite E2, !Nat.eqb_refl. apply orb_true_r.
        + intros y _ Hy. rewrite E2. apply Nat.eqb_neq in Hy. rewrite Hy. cbn. apply orb_false_r.
      - rewrite (cnt_ext _ _ (fun d => edge N1 d x)).
        + rewrite <- CE. destruct (x =? d) eqn:G; auto. apply Nat.eqb_eq in G. now subst.
        + intros y _. rewrite E2, F, andb_false_r. apply orb_false_r. }
    constructor; cbn [a_nodes a_new a_dirty a_pc a_succ].
    + fold N2. now rewrite K2.
    + fold N2. now rewrite K2.
    + fold N2. now rewrite K2.
    + fold N2. intros x y. rewrite E2, E1, orb_true_iff, ai_edge0, andb_true_iff, !Nat.eqb_eq, in_app_iff.
      cbn. intuition.
    + fold N2. intros x. unfold N2. rewrite succs_of_dset. destruct (x =? d) eqn:F; rewrite S1; auto.
      apply nodup_app_one; auto. intros I. apply smem_true in I.
      change (edge (a_nodes a) d node = true) in I. congruence.
    + apply nodup_app_one; auto. rewrite ai_succ0. tauto.
    + intros x. rewrite !in_app_iff, ai_succ0. cbn. intuition (subst; auto).
    + destruct (a_succ a); cbn; now rewrite orb_true_r.
    + exact C2.
Qed.

Lemma add_fold_AI N dirty node deps : forall ps a, NI N -> AI N dirty node ps a ->
  AI N dirty node (ps ++ deps) (fold_left (add_dep node) deps a).
Proof.
  induction deps as [|d t IH]; intros ps a HN H; cbn; [now rewrite app_nil_r|].
  replace (ps ++ d :: t) with ((ps ++ [d]) ++ t) by now rewrite <- app_assoc.
  apply IH; auto. apply add_dep_AI; auto.
Qed.

Theorem add_nodes_part_spec N dirty node deps : NI N ->
  let a := add_nodes_part N dirty node deps in
  NI (a_nodes a) /\ dkeys (a_nodes a) = dkeys N ++ a_new a /\
  (forall x, In x (dkeys (a_nodes a)) <-> In x (dkeys N) \/ x = node \/ In x deps) /\
  (forall d n, edge (a_nodes a) d n = true <-> edge N d n = true \/ (n = node /\ In d deps)) /\
  NoDup (a_succ a) /\ (forall d, In d (a_succ a) <-> In d deps /\ edge N d node = false) /\
  a_dirty a = dirty || match a_succ a with [] => false | _ => true end.
Proof.
  intros HN. unfold add_nodes_part.
  set (N0 := nodes_ensure N node).
  set (a0 := mkAdd N0 dirty (pc_of N0 node) (if dmem node N then [] else [node]) []).
  assert (A0 : AI N dirty node [] a0).
  { constructor; cbn [a0 a_nodes a_new a_dirty a_pc a_succ].
    - apply keys_ensure.
    - apply nodup_ensure, HN.
    - intros x. unfold N0. rewrite in_keys_ensure. cbn. tauto.
    - intros d n. unfold N0. rewrite edge_ensure. cbn. tauto.
    - intros. unfold N0. rewrite succs_ensure. apply HN.
    - constructor.
    - cbn. tauto.
    - now rewrite orb_false_r.
    - intros x Hx. replace (if x =? node then pc_of N0 node else pc_of N0 x) with (pc_of N x).
      + rewrite (cnt_ext _ _ (fun d => edge N d x)) by (intros; apply edge_ensure).
        unfold N0. rewrite keys_ensure, cnt_app. apply in_keys_ensure in Hx.
        destruct (in_dec Nat.eq_dec x (dkeys N)) as [I|I].
        * rewrite (ni_counts _ HN x I). destruct (dmem node N) eqn:E; [cbn; lia|].
          apply dmem_false in E. rewrite cnt_cons. replace (edge N node x) with false; [cbn; lia|].
          unfold edge. now rewrite succs_of_notin.
        * rewrite pc_of_notin, !(cnt_edge_new_zero N x (fun d => ni_closed N HN d x) I); auto.
      + unfold N0. rewrite !pc_ensure. destruct (x =? node) eqn:E; auto.
        apply Nat.eqb_eq in E. now subst. }
  pose proof (add_fold_AI N dirty node deps [] a0 HN A0) as H. cbn [app] in H.
  fold N0. fold a0. set (a := fold_left (add_dep node) deps a0) in *. destruct H. cbn [a_nodes a_new a_dirty a_pc a_succ].
  assert (Hnode : In node (dkeys (a_nodes a))) by (apply ai_in0; auto).
  set (N' := dset (a_nodes a) node (a_pc a, succs_of (a_nodes a) node)).
  assert (K : dkeys N' = dkeys (a_nodes a)) by (apply dkeys_dset_in; auto).
  assert (Ee : forall x y, edge N' x y = edge (a_nodes a) x y).
  { intros. unfold edge, N'. rewrite succs_of_dset. destruct (x =? node) eqn:F; auto.
    apply Nat.eqb_eq in F. now subst. }
  split; [|rewrite K; split; [auto|split; [auto|split; [|auto]]]].
  - constructor.
    + now rewrite K.
    + intros d. unfold N'. rewrite succs_of_dset. destruct (d =? node); auto.
    + intros d n. rewrite Ee, K. intros H. apply ai_in0. apply ai_edge0 in H.
      destruct H as [H|[-> _]]; auto. left. eapply ni_closed; eauto.
    + intros n Hn. rewrite K in *. unfold N' at 1. rewrite pc_of_dset.
      rewrite (cnt_ext _ _ (fun d => edge (a_nodes a) d n)) by (intros; apply Ee).
      apply ai_counts0. auto.
  - intros. rewrite Ee. apply ai_edge0.
Qed.

Lemma find_preds_spec node items : forall c,
  c = Z.of_nat (length (filter (fun it : nat * (Z * list nat) => smem node (snd (snd it))) items)) ->
  c <> 0%Z ->
  find_preds node c items =
  map fst (filter (fun it : nat * (Z * list nat) => smem node (snd (snd it))) items).
Proof.
  induction items as [|[n [p s]] t IH]; intros c E Z; cbn [find_preds filter fst snd] in *; [cbn in *; congruence|].
  destruct (smem node s); cbn [map fst length] in *; [|now apply IH].
  f_equal. destruct (c - 1 =? 0)%Z eqn:F.
  - apply Z.eqb_eq in F. destruct (filter _ t); cbn in *; [auto|lia].
  - apply Z.eqb_neq in F. apply IH; lia.
Qed.
Lemma cnt_items node (N : nodes_t) : NoDup (dkeys N) ->
  map fst (filter (fun it : nat * (Z * list nat) => smem node (snd (snd it))) N)
  = filter (fun d => edge N d node) (dkeys N).
Proof.
  induction N as [|[n [p s]] t IH]; intros H; [auto|]. inversion H; subst.
  cbn [dkeys map fst snd filter].
  replace (edge ((n, (p, s)) :: t) n node) with (smem node s).
  2:{ unfold edge, succs_of. cbn. now rewrite Nat.eqb_refl. }
  assert (filter (fun d => edge ((n, (p, s)) :: t) d node) (map fst t) = filter (fun d => edge t d node) (dkeys t)).
  { apply filter_ext_in. intros x Hx. unfold edge, succs_of. cbn.
    destruct (x =? n) eqn:E; auto. apply Nat.eqb_eq in E. subst. cbn in *. tauto. }
  rewrite H0, <- IH by auto. destruct (smem node s); auto.
Qed.

Lemma del_edges_spec node preds : forall N, NoDup preds -> (forall x, In x preds -> In x (dkeys N)) ->
  dkeys (del_edges node preds N) = dkeys N /\
  (forall x, pc_of (del_edges node preds N) x = pc_of N x) /\
  (forall x, succs_of (del_edges node preds N) x =
             if smem x preds then lremove node (succs_of N x) else succs_of N x).
Proof.
  unfold del_edges. induction preds as [|d t IH]; intros N ND I; cbn [fold_left]; [auto|].
  inversion ND; subst. set (N1 := dset N d _).
  assert (K : dkeys N1 = dkeys N) by (apply dkeys_dset_in; apply I; cbn; auto).
  destruct (IH N1 H2) as (A & B & C).
  { intros x Hx. rewrite K. apply I; cbn; auto. }
  split; [congruence|]. split; intros x.
  - rewrite B. unfold N1. rewrite pc_of_dset. destruct (x =? d) eqn:E; auto.
    apply Nat.eqb_eq in E. now subst.
  - rewrite C. unfold N1. rewrite succs_of_dset. cbn. destruct (x =? d) eqn:E; auto.
    apply Nat.eqb_eq in E. subst. apply smem_false in H1. unfold smem in *. rewrite H1. auto.
Qed.
Lemma dec_counts_spec succs : forall N, NoDup succs -> (forall x, In x succs -> In x (dkeys N)) ->
  dkeys (dec_counts succs N) = dkeys N /\
  (forall x, pc_of (dec_counts succs N) x = if smem x succs then (pc_of N x - 1)%Z else pc_of N x) /\
  (forall x, succs_of (dec_counts succs N) x = succs_of N x).
Proof.
  unfold dec_counts. induction succs as [|d t IH]; intros N ND I; cbn [fold_left]; [auto|].
  inversion ND; subst. set (N1 := dset N d _).
  assert (K : dkeys N1 = dkeys N) by (apply dkeys_dset_in; apply I; cbn; auto).
  destruct (IH N1 H2) as (A & B & C).
  { intros x Hx. rewrite K. apply I; cbn; auto. }
  split; [congruence|]. split; intros x.
  - rewrite B. unfold N1. rewrite pc_of_dset. cbn. destruct (x =? d) eqn:E; auto.
    apply Nat.eqb_eq in E. subst. apply smem_false in H1. unfold smem in *. rewrite H1. auto.
  - rewrite C. unfold N1. rewrite succs_of_dset. destruct (x =? d) eqn:E; auto.
    apply Nat.eqb_eq in E. now subst.
Qed.

Lemma smem_lremove x y l : NoDup l -> smem x (lremove y l) = smem x l && negb (x =? y).
Proof.
  intros H. apply eq_true_iff_eq. rewrite andb_true_iff, negb_true_iff, Nat.eqb_neq, !smem_true.
  now apply in_lremove.
Qed.

Theorem remove_nodes_part_spec N node N' succs : NI N -> In node (dkeys N) ->
  remove_nodes_part N node = (N', succs) ->
  NI N' /\ dkeys N' = lremove node (dkeys N) /\
  (forall d n, edge N' d n = edge N d n && negb (d =? node) && negb (n =? node)) /\
  succs = lremove node (succs_of N node).
Proof.
  intros HN Hnode. unfold remove_nodes_part.
  set (preds := if (pc_of N node =? 0)%Z then [] else find_preds node (pc_of N node) N).
  assert (P : preds = filter (fun d => edge N d node) (dkeys N)).
  { unfold preds. pose proof (ni_counts _ HN node Hnode) as C.
    destruct (pc_of N node =? 0)%Z eqn:E.
    - apply Z.eqb_eq in E. unfold cnt in C.
      destruct (filter (fun d => edge N d node) (dkeys N)); [auto|cbn in C; lia].
    - apply Z.eqb_neq in E. rewrite find_preds_spec; auto.
      + apply cnt_items, HN.
      + rewrite C. unfold cnt. rewrite <- cnt_items by apply HN. now rewrite map_length. }
  rewrite P. clear P preds.
  set (preds := filter (fun d => edge N d node) (dkeys N)).
  destruct (del_edges_spec node preds N) as (K1 & P1 & S1).
  { apply NoDup_filter, HN. } { intros x Hx. apply filter_In in Hx. tauto. }
  set (N1 := del_edges node preds N) in *.
  assert (S1' : forall x, succs_of N1 x = lremove node (succs_of N x)).
  { intros x. rewrite S1. destruct (smem x preds) eqn:E; auto.
    symmetry. apply lremove_notin. intros I. apply smem_false in E. apply E.
    unfold preds. apply filter_In. apply edge_succ in I. split; auto. eapply edge_key; eauto. }
  rewrite S1'. set (ss := lremove node (succs_of N node)) in *.
  destruct (dec_counts_spec ss N1) as (K2 & P2 & S2).
  { apply nodup_lremove, HN. }
  { intros x Hx. unfold ss in Hx. apply in_lremove in Hx; [|apply HN]. rewrite K1.
    eapply ni_closed; eauto. apply edge_succ. apply Hx. }
  set (N2 := dec_counts ss N1) in *.
  intros [= <- <-].
  assert (ND2 : NoDup (dkeys N2)) by (rewrite K2, K1; apply HN).
  assert (K3 : dkeys (ddel N2 node) = lremove node (dkeys N)) by (now rewrite dkeys_ddel, K2, K1).
  assert (S3 : forall x, succs_of (ddel N2 node) x = if x =? node then [] else lremove node (succs_of N x)).
  { intros x. unfold succs_of at 1. rewrite dget_ddel by auto. destruct (x =? node); auto.
    change (succs_of N2 x = lremove node (succs_of N x)). now rewrite S2, S1'. }
  assert (E3 : forall d n, edge (ddel N2 node) d n = edge N d n && negb (d =? node) && negb (n =? node)).
  { intros d n. unfold edge. rewrite S3. destruct (d =? node); cbn; [now rewrite andb_false_r|].
    rewrite smem_lremove by apply HN. now rewrite andb_true_r. }
  split; [|auto]. constructor.
  - rewrite K3. apply nodup_lremove, HN.
  - intros d. rewrite S3. destruct (d =? node); [constructor|]. apply nodup_lremove, HN.
  - intros d n. rewrite E3, !andb_true_iff, !negb_true_iff, !Nat.eqb_neq. intros [[H1 H2] H3].
    rewrite K3. apply in_lremove; [apply HN|]. split; auto. eapply ni_closed; eauto.
  - intros n Hn. rewrite K3 in *. apply in_lremove in Hn; [|apply HN]. destruct Hn as [Hn Nn].
    unfold pc_of. rewrite dget_ddel by auto. apply Nat.eqb_neq in Nn. rewrite Nn.
    change (pc_of N2 n = Z.of_nat (cnt (lremove node (dkeys N)) (fun d => edge (ddel N2 node) d n))).
    rewrite P2, P1, (ni_counts _ HN n Hn). rewrite cnt_lremove by apply HN.
    rewrite (cnt_ext _ (fun y => edge (ddel N2 node) y n && negb (node =? y)) (fun d => edge N d n && negb (d =? node))).
    2:{ intros x _. rewrite E3, Nn. rewrite (Nat.eqb_sym node x). cbn.
        destruct (edge N x n), (x =? node); auto. }
    unfold ss. rewrite smem_lremove by apply HN. rewrite Nn. cbn. rewrite andb_true_r.
    change (smem n (succs_of N node)) with (edge N node n).
    destruct (edge N node n) eqn:Ed.
    + rewrite (cnt_flip (dkeys N) (fun d => edge N d n && negb (d =? node)) (fun d => edge N d n) node); auto.
      * lia.
      * apply HN.
      * cbn. rewrite Nat.eqb_refl. apply andb_false_r.
      * intros x _ Hx. apply Nat.eqb_neq in Hx. rewrite Hx. cbn. now rewrite andb_true_r.
    + f_equal. apply cnt_ext. intros x _. destruct (x =? node) eqn:F; cbn; [|now rewrite andb_true_r].
      apply Nat.eqb_eq in F. subst. now rewrite Ed.
Qed.
