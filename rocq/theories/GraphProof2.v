(** Invariants of one View and their preservation. *)
From Verif Require Import PyBase PyBaseProof PyDict PyDictProof GraphModel GraphProof1.
From Coq Require Import Lia.

Definition rel (c : dict (list nat)) (d n : nat) : Prop := exists s, dget c d = Some s /\ In n s.
Definition dwf (c : dict (list nat)) : Prop := NoDup (dkeys c) /\ forall d s, dget c d = Some s -> s <> [].
Record CI (K : list nat) (C : nat -> nat -> Prop) (v : view) : Prop := mkCI {
  ci_wf : dwf (v_conf v); ci_wfr : dwf (v_rconf v);
  ci_c : forall d n, rel (v_conf v) d n <-> C d n;
  ci_r : forall d n, rel (v_rconf v) n d <-> C d n;
  ci_sub : forall d n, C d n -> In d K /\ In n K
}.
(** [M] is the set of nodes whose outgoing edges no longer count *)
Record VIg (K : list nat) (E : nat -> nat -> bool) (L : nat -> Prop) (M : nat -> bool) (v : view)
  : Prop := mkVI {
  vi_K : NoDup K;
  vi_pred : forall n, In n K -> dget (v_pred v) n <> None;
  vi_nk : NoDup (dkeys (v_pred v));
  vi_nr : NoDup (v_ready v); vi_ny : NoDup (v_yielded v); vi_nd : NoDup (v_done v);
  vi_yk : forall n, In n (v_yielded v) -> In n K;
  vi_dk : forall n, In n (v_done v) -> In n K;
  vi_disj : forall n, In n (v_yielded v) -> ~ In n (v_done v);
  vi_ready : forall n, In n (v_ready v) <->
     In n K /\ ~ In n (v_yielded v) /\ ~ In n (v_done v) /\ dget (v_pred v) n = Some 0%Z;
  vi_cnt : forall n, In n K -> ~ In n (v_yielded v) -> ~ In n (v_done v) ->
     exists k : nat, dget (v_pred v) n = Some (Z.of_nat (cnt K (fun d => E d n && negb (M d)) + k))
                     /\ (k <> 0 <-> L n);
  vi_late : forall n, L n -> In n K
}.
Definition VI K E L C v := VIg K E L (fun d => smem d (v_done v)) v /\ CI K C v.

Lemma VIg_ext K E E' L L' M M' v :
  (forall d n, In d K -> In n K -> E d n && negb (M d) = E' d n && negb (M' d)) ->
  (forall n, L n <-> L' n) -> VIg K E L M v -> VIg K E' L' M' v.
Proof.
  intros HE HL H. destruct H. constructor; auto.
  - intros n H1 H2 H3. destruct (vi_cnt0 n H1 H2 H3) as [k [A B]]. exists k. split.
    + rewrite A. do 3 f_equal. apply cnt_ext. auto.
    + rewrite B. auto.
  - intros n H. apply vi_late0, HL, H.
Qed.
Lemma CI_ext K C C' v : (forall d n, C d n <-> C' d n) -> CI K C v -> CI K C' v.
Proof.
  intros H []. constructor; auto.
  - intros. now rewrite ci_c0. - intros. now rewrite ci_r0.
  - intros d n Q. apply ci_sub0, H, Q.
Qed.
Lemma VI_ext K E E' L L' C C' v :
  (forall d n, E d n = E' d n) -> (forall n, L n <-> L' n) -> (forall d n, C d n <-> C' d n) ->
  VI K E L C v -> VI K E' L' C' v.
Proof.
  intros HE HL HC [H1 H2]. split; [eapply VIg_ext; eauto|eapply CI_ext; eauto].
  intros. now rewrite HE.
Qed.

(** a fresh view *)
Lemma VI_fresh g E : VI [] E (fun _ => False) (fun _ _ => False) (v_fresh g).
Proof.
  split; constructor; cbn; try constructor; try easy; try (intros [? []]; easy); try (intros ? ? [? []]; easy).
  - constructor.
  - constructor.
Qed.

Lemma dget_fold_zero ns : forall (d : dict Z) n,
  dget (fold_left (fun d n => dset d n 0%Z) ns d) n = if smem n ns then Some 0%Z else dget d n.
Proof.
  induction ns as [|a t IH]; cbn; intros d n; auto. rewrite IH, dget_dset.
  fold (smem n t). destruct (n =? a); cbn; auto. destruct (smem n t); auto.
Qed.
Lemma add_nodes_eq ns : forall v, v_add_nodes v ns =
  mkV (v_graph v) (fold_left (fun d n => dset d n 0%Z) ns (v_pred v)) (v_ready v ++ ns)
      (v_yielded v) (v_done v) (v_conf v) (v_rconf v).
Proof.
  unfold v_add_nodes. induction ns as [|a t IH]; intros v; cbn [fold_left].
  - rewrite app_nil_r. now destruct v.
  - rewrite IH. cbn. now rewrite <- app_assoc.
Qed.
Lemma nodup_fold_zero ns : forall d : dict Z, NoDup (dkeys d) ->
  NoDup (dkeys (fold_left (fun d n => dset d n 0%Z) ns d)).
Proof. induction ns; cbn [fold_left]; intros; auto. apply IHns, nodup_dset; auto. Qed.
Lemma nodup_app_l {A} (a b : list A) : NoDup (a ++ b) -> NoDup a.
Proof. induction a; cbn; intros H; [constructor|]. inversion H; subst. constructor; auto.
  intros I. apply H2. apply in_or_app. auto. Qed.
Lemma nodup_app_r {A} (a b : list A) : NoDup (a ++ b) -> NoDup b.
Proof. induction a; cbn; intros H; auto. inversion H; auto. Qed.
Lemma nodup_app_disj {A} (a b : list A) x : NoDup (a ++ b) -> In x a -> In x b -> False.
Proof. induction a; cbn; intros H I J; auto. inversion H; subst. destruct I as [->|I]; auto.
  apply H2. apply in_or_app. auto. Qed.
Lemma nodup_app_intro {A} (a b : list A) : NoDup a -> NoDup b -> (forall x, In x a -> ~ In x b) -> NoDup (a ++ b).
Proof. induction a; cbn; intros H1 H2 H; auto. inversion H1; subst. constructor; auto.
  rewrite in_app_iff. intros [I|I]; auto. eapply H; eauto. Qed.

Lemma VI_add_nodes K E L C v ns : VI K E L C v -> NoDup (K ++ ns) ->
  (forall d n, In n ns -> E d n = false) -> (forall d n, In d ns -> E d n = false) ->
  VI (K ++ ns) E L C (v_add_nodes v ns).
Proof.
  intros [H HC] ND E1 E2. rewrite add_nodes_eq. split.
  - destruct H. constructor; cbn [v_pred v_ready v_yielded v_done]; auto.
    + intros n Hn. rewrite dget_fold_zero. destruct (smem_in n ns); [discriminate|].
      apply vi_pred0. apply in_app_iff in Hn. tauto.
    + apply nodup_fold_zero; auto.
    + apply nodup_app_intro; auto.
      * eapply nodup_app_r; eauto.
      * intros x Hx Hx'. apply vi_ready0 in Hx. destruct Hx as [Hx _].
        eapply nodup_app_disj; eauto.
    + intros n Hn. apply in_or_app. auto.
    + intros n Hn. apply in_or_app. auto.
    + intros n. rewrite !in_app_iff, vi_ready0, dget_fold_zero. destruct (smem_in n ns) as [I|I].
      * split; [|tauto]. intros _. assert (~ In n K) by (intros J; eapply nodup_app_disj; eauto).
        repeat split; auto.
      * intuition.
    + intros n Hn Hy Hd. rewrite dget_fold_zero. apply in_app_iff in Hn.
      destruct (smem_in n ns) as [I|I].
      * exists 0. split.
        -- do 2 f_equal. rewrite (proj2 (cnt_zero _ _)); auto. intros x _. rewrite E1; auto.
        -- split; [easy|]. intros F. apply vi_late0 in F. exfalso. eapply nodup_app_disj; eauto.
      * destruct Hn as [Hn|Hn]; [|tauto]. destruct (vi_cnt0 n Hn Hy Hd) as [k [A B]].
        exists k. split; auto. rewrite A. do 3 f_equal. rewrite cnt_app.
        rewrite (proj2 (cnt_zero ns _)); auto. intros x Hx. rewrite E2; auto.
    + intros n Hn. apply in_or_app. auto.
  - destruct HC. constructor; cbn [v_conf v_rconf]; auto.
    intros d n Hc. apply ci_sub0 in Hc. rewrite !in_app_iff. tauto.
Qed.

Lemma rel_dd_add c k x d n : rel (dd_add c k x) d n <-> rel c d n \/ (d = k /\ n = x).
Proof.
  unfold rel, dd_add. rewrite dget_dset. destruct (d =? k) eqn:Ek.
  - apply Nat.eqb_eq in Ek. subst. split.
    + intros [s [[= <-] H]]. apply in_sadd in H. destruct H as [->|H]; auto.
      destruct (dget c k) eqn:G; [|destruct H]. left. eauto.
    + intros [[s [G H]]|[_ ->]].
      * rewrite G. eexists. split; [eauto|]. apply in_sadd. auto.
      * eexists. split; [eauto|]. apply in_sadd. auto.
  - apply Nat.eqb_neq in Ek. intuition congruence.
Qed.
Lemma dwf_dd_add c k x : dwf c -> dwf (dd_add c k x).
Proof.
  intros [H1 H2]. split; [now apply nodup_dset|]. intros d s. unfold dd_add. rewrite dget_dset.
  destruct (d =? k); [|apply H2]. intros [= <-] F.
  assert (In x (sadd x (match dget c k with Some s => s | None => [] end))) by (apply in_sadd; auto).
  rewrite F in H. destruct H.
Qed.

Lemma VI_add_successor K E L C v d n : VI K E L C v -> In d K -> In n K -> E d n = false ->
  exists v', v_add_successor v d n = (v', Ok tt) /\
    v_graph v' = v_graph v /\ v_yielded v' = v_yielded v /\ v_done v' = v_done v /\
    VI K (fun a b => E a b || ((a =? d) && (b =? n)))
       (fun x => L x \/ (x = n /\ In d (v_done v) /\ ~ In n (v_done v)))
       (fun a b => C a b \/ (a = d /\ b = n /\ ~ In d (v_done v) /\ (In n (v_yielded v) \/ In n (v_done v)))) v'.
Proof.
  intros [H HC] Id In_ En.
  unfold v_add_successor.
  set (b := negb (smem d (v_done v)) && (smem n (v_yielded v) || smem n (v_done v))).
  set (v1 := if b then _ else _).
  assert (F1 : v_graph v1 = v_graph v /\ v_yielded v1 = v_yielded v /\ v_done v1 = v_done v /\
               v_pred v1 = v_pred v /\ v_ready v1 = v_ready v) by (unfold v1; destruct b; auto).
  destruct F1 as (Fg & Fy & Fd & Fp & Fr).
  set (C' := fun a b => C a b \/ (a = d /\ b = n /\ ~ In d (v_done v) /\ (In n (v_yielded v) \/ In n (v_done v)))).
  assert (HC1 : CI K C' v1).
  { destruct HC. unfold v1. destruct b eqn:B; unfold b in B.
    - apply andb_true_iff in B. rewrite negb_true_iff, smem_false, orb_true_iff, !smem_true in B.
      constructor; cbn; auto using dwf_dd_add.
      + intros x y. rewrite rel_dd_add, ci_c0. unfold C'. intuition.
      + intros x y. rewrite rel_dd_add, ci_r0. unfold C'. intuition.
      + intros x y [Q|[-> [-> _]]]; auto.
    - assert (~ (~ In d (v_done v) /\ (In n (v_yielded v) \/ In n (v_done v)))).
      { rewrite <- !smem_true. destruct (smem d (v_done v)), (smem n (v_yielded v)), (smem n (v_done v));
          cbn in B; try discriminate; intuition congruence. }
      constructor; auto.
      + intros x y. rewrite ci_c0. unfold C'. tauto.
      + intros x y. rewrite ci_r0. unfold C'. tauto.
      + intros x y [Q|Q]; auto. tauto. }
  clearbody v1. clear HC. rewrite Fd, Fp.
  set (E' := fun a b => E a b || ((a =? d) && (b =? n))).
  set (L' := fun x => L x \/ (x = n /\ In d (v_done v) /\ ~ In n (v_done v))).
  assert (Cother : forall M x, x <> n -> cnt K (fun a => E' a x && negb (M a)) = cnt K (fun a => E a x && negb (M a))).
  { intros M x Hx. apply cnt_ext. intros y _. unfold E'. apply Nat.eqb_neq in Hx. rewrite Hx.
    now rewrite andb_false_r, orb_false_r. }
  destruct (smem_in n (v_done v)) as [Dn|Dn]; cbn.
  - exists v1. do 4 (split; auto). split; auto.
    destruct H. constructor; rewrite ?Fp, ?Fr, ?Fy, ?Fd; auto.
    + intros x H1 H2 H3. assert (x <> n) by congruence. rewrite Cother by auto.
      destruct (vi_cnt0 x H1 H2 H3) as [k [A B]]. exists k. split; auto. rewrite B. unfold L'. tauto.
    + intros x [Q|[-> Q]]; auto.
  - destruct (dget (v_pred v) n) as [k0|] eqn:P.
    2:{ exfalso. eapply (vi_pred _ _ _ _ _ H n); eauto. }
    assert (VIg K E' L' (fun d => smem d (v_done v))
              (mkV (v_graph v) (dset (v_pred v) n (k0 + 1)%Z)
                   (if (k0 + 1 =? 1)%Z then lremove n (v_ready v) else v_ready v)
                   (v_yielded v) (v_done v) [] [])) as G.
    { destruct H. constructor; cbn [v_pred v_ready v_yielded v_done]; auto.
      - intros x Hx. rewrite dget_dset. destruct (x =? n); [discriminate|auto].
      - apply nodup_dset; auto.
      - destruct (k0 + 1 =? 1)%Z; auto using nodup_lremove.
      - intros x. rewrite dget_dset. destruct (x =? n) eqn:Ex.
        + apply Nat.eqb_eq in Ex. subst x.
          assert (~ In n (if (k0 + 1 =? 1)%Z then lremove n (v_ready v) else v_ready v)).
          { destruct (k0 + 1 =? 1)%Z eqn:F.
            - rewrite in_lremove; auto. tauto.
            - rewrite vi_ready0, P. apply Z.eqb_neq in F. intros (_ & _ & _ & [= ->]). lia. }
          split; [tauto|]. intros (_ & Hy & Hd & [= Q]).
          destruct (vi_cnt0 n In_ Hy Hd) as [k [A B]]. rewrite P in A. injection A as A. lia.
        + apply Nat.eqb_neq in Ex. rewrite <- vi_ready0.
          destruct (k0 + 1 =? 1)%Z; [|tauto]. rewrite in_lremove by auto. tauto.
      - intros x H1 H2 H3. rewrite dget_dset. destruct (x =? n) eqn:Ex.
        + apply Nat.eqb_eq in Ex. subst x.
          destruct (vi_cnt0 n H1 H2 H3) as [k [A B]]. rewrite P in A. injection A as A.
          destruct (smem_in d (v_done v)) as [Dd|Dd].
          * exists (S k). split.
            -- rewrite (cnt_ext _ (fun a => E' a n && negb (smem a (v_done v))) (fun a => E a n && negb (smem a (v_done v)))).
               ++ f_equal. lia.
               ++ intros x _. unfold E'. destruct (x =? d) eqn:Exd; cbn; [|now rewrite orb_false_r].
                  apply Nat.eqb_eq in Exd. subst x. apply smem_true in Dd. rewrite Dd. cbn.
                  now rewrite !andb_false_r.
            -- split; [|intros _; discriminate]. intros _. right. auto.
          * exists k. split.
            -- rewrite (cnt_flip K (fun a => E a n && negb (smem a (v_done v))) _ d); auto.
               ++ f_equal. lia.
               ++ now rewrite En.
               ++ unfold E'. rewrite !Nat.eqb_refl. apply smem_false in Dd. rewrite Dd. cbn.
                  now rewrite orb_true_r.
               ++ intros x _ Hx. unfold E'. apply Nat.eqb_neq in Hx. rewrite Hx. cbn. now rewrite orb_false_r.
            -- rewrite B. unfold L'. tauto.
        + apply Nat.eqb_neq in Ex. rewrite Cother by auto.
          destruct (vi_cnt0 x H1 H2 H3) as [k [A B]]. exists k. split; auto. rewrite B. unfold L'. tauto.
      - intros x [Q|[-> Q]]; auto. }
    assert (T : forall pr rd c r, VIg K E' L' (fun d => smem d (v_done v)) (mkV (v_graph v) pr rd (v_yielded v) (v_done v) [] []) ->
       VIg K E' L' (fun d => smem d (v_done v)) (mkV (v_graph v1) pr rd (v_yielded v) (v_done v) c r)).
    { intros pr rd c r []. constructor; auto. }
    apply (T _ _ (v_conf v1) (v_rconf v1)) in G.
    destruct (k0 + 1 =? 1)%Z.
    + eexists. split; [reflexivity|]. cbn. do 3 (split; auto). split.
      * cbn [set_ready set_pred v_done]. unfold set_ready, set_pred. cbn. rewrite Fy, Fd, Fr. exact G.
      * destruct HC1. constructor; auto.
    + eexists. split; [reflexivity|]. cbn. do 3 (split; auto). split.
      * unfold set_pred. cbn. rewrite Fy, Fd, Fr. exact G.
      * destruct HC1. constructor; auto.
Qed.

(** marking a node done: exact effect on the counts and the ready list *)
Definition active (v : view) (s : nat) : bool := negb (smem s (v_yielded v)) && negb (smem s (v_done v)).
Lemma mark_done_raw succs : forall v, NoDup succs ->
  (forall s, In s succs -> active v s = true -> dget (v_pred v) s <> None) ->
  exists v', v_mark_done v succs = (v', Ok tt) /\
    v_graph v' = v_graph v /\ v_yielded v' = v_yielded v /\ v_done v' = v_done v /\
    v_conf v' = v_conf v /\ v_rconf v' = v_rconf v /\
    (forall s, dget (v_pred v') s =
       if smem s succs && active v s then option_map (fun k => k - 1)%Z (dget (v_pred v) s)
       else dget (v_pred v) s) /\
    (NoDup (dkeys (v_pred v)) -> NoDup (dkeys (v_pred v'))) /\
    v_ready v' = v_ready v ++
       filter (fun s => active v s && match dget (v_pred v) s with Some 1%Z => true | _ => false end) succs.
Proof.
  unfold v_mark_done. induction succs as [|a t IH]; intros v ND P; cbn [for_each].
  - exists v. rewrite app_nil_r. cbn. repeat split; auto.
  - inversion ND; subst. unfold v_mark_one at 1.
    assert (Ac : active v a = negb (smem a (v_yielded v) || smem a (v_done v))).
    { unfold active. now destruct (smem a (v_yielded v)). }
    destruct (smem a (v_yielded v) || smem a (v_done v)) eqn:Ya.
    + destruct (IH v H2) as (v' & E & G & Y & D & C & R & Pr & Nk & Rd).
      { intros s Hs. apply P. cbn. auto. }
      exists v'. do 6 (split; auto). split; [|split; auto].
      * intros s. rewrite Pr. cbn. destruct (s =? a) eqn:Es; auto. apply Nat.eqb_eq in Es. subst s.
        rewrite Ac. cbn. rewrite !andb_false_r. auto.
      * rewrite Rd. cbn. rewrite Ac. auto.
    + cbn in Ac. destruct (dget (v_pred v) a) as [k|] eqn:Pa.
      2:{ exfalso. apply (P a); cbn; auto. }
      set (v1 := if (k - 1 =? 0)%Z then set_ready (set_pred v (dset (v_pred v) a (k - 1)%Z)) (v_ready v ++ [a])
                 else set_pred v (dset (v_pred v) a (k - 1)%Z)).
      replace (if (k - 1 =? 0)%Z then _ else _) with (v1, @Ok unit tt).
      2:{ unfold v1. destruct (k - 1 =? 0)%Z; auto. }
      assert (V1 : v_graph v1 = v_graph v /\ v_yielded v1 = v_yielded v /\ v_done v1 = v_done v /\
                   v_conf v1 = v_conf v /\ v_rconf v1 = v_rconf v /\ v_pred v1 = dset (v_pred v) a (k - 1)%Z /\
                   v_ready v1 = v_ready v ++ (if (k - 1 =? 0)%Z then [a] else [])).
      { unfold v1. destruct (k - 1 =? 0)%Z; cbn; rewrite ?app_nil_r; repeat split; auto. }
      clearbody v1. destruct V1 as (G1 & Y1 & D1 & C1 & R1 & P1 & Rd1).
      assert (A1 : forall s, active v1 s = active v s) by (intros; unfold active; now rewrite Y1, D1).
      destruct (IH v1 H2) as (v' & E & G & Y & D & C & R & Pr & Nk & Rd).
      { intros s Hs Hy. rewrite P1, dget_dset. destruct (s =? a); [discriminate|].
        rewrite A1 in Hy. apply P; cbn; auto. }
      exists v'. split; auto. do 5 (split; [congruence|]). split; [|split].
      * intros s. rewrite Pr, A1, P1, dget_dset. cbn [smem existsb].
        change (existsb (Nat.eqb s) t) with (smem s t).
        destruct (s =? a) eqn:Es; cbn; auto. apply Nat.eqb_eq in Es. subst s.
        rewrite Ac, Pa. apply smem_false in H1. rewrite H1. auto.
      * intros Q. apply Nk. rewrite P1. apply nodup_dset; auto.
      * rewrite Rd, Rd1, <- app_assoc. f_equal. cbn [filter]. rewrite Ac, Pa. cbn [andb].
        rewrite (filter_ext_in _ (fun s => active v s && match dget (v_pred v) s with Some 1%Z => true | _ => false end)).
        -- destruct (k - 1 =? 0)%Z eqn:F.
           ++ apply Z.eqb_eq in F. replace k with 1%Z by lia. auto.
           ++ apply Z.eqb_neq in F. destruct k as [|[]|]; auto. lia.
        -- intros s Hs. rewrite A1, P1, dget_dset. destruct (s =? a) eqn:Es; auto.
           apply Nat.eqb_eq in Es. subst; tauto.
Qed.

Lemma active_true v s : active v s = true <-> ~ In s (v_yielded v) /\ ~ In s (v_done v).
Proof. unfold active. now rewrite andb_true_iff, !negb_true_iff, !smem_false. Qed.

Lemma VIg_mark K E L M v x succs : VIg K E L M v -> In x K -> M x = false -> NoDup succs ->
  (forall s, In s succs <-> E x s = true) -> (forall s, E x s = true -> In s K) ->
  exists v', v_mark_done v succs = (v', Ok tt) /\
    v_graph v' = v_graph v /\ v_yielded v' = v_yielded v /\ v_done v' = v_done v /\
    v_conf v' = v_conf v /\ v_rconf v' = v_rconf v /\
    VIg K E L (fun d => M d || (d =? x)) v'.
Proof.
  intros H Ix Mx ND Hs HK.
  destruct (mark_done_raw succs v ND) as (v' & Eq & G & Y & D & C & R & Pr & Nk & Rd).
  { intros s I _. apply (vi_pred _ _ _ _ _ H). apply HK, Hs, I. }
  exists v'. do 6 (split; auto). destruct H.
  assert (Q : forall n, In n K -> ~ In n (v_yielded v) -> ~ In n (v_done v) ->
    exists k p, dget (v_pred v) n = Some p /\ (k <> 0 <-> L n) /\
      p = (Z.of_nat (cnt K (fun d => E d n && negb (M d || (d =? x)%nat)) + k) + (if smem n succs then 1 else 0))%Z /\
      dget (v_pred v') n = Some (p - if smem n succs then 1 else 0)%Z).
  { intros n H1 H2 H3. destruct (vi_cnt0 n H1 H2 H3) as [k [A B]]. exists k. eexists. split; [exact A|].
    split; auto. rewrite Pr, A.
    replace (active v n) with true by (symmetry; now apply active_true).
    rewrite andb_true_r. destruct (smem_in n succs) as [I|I].
    - rewrite (cnt_flip K (fun d => E d n && negb (M d || (d =? x))) _ x); auto.
      + split; [lia|]. cbn. f_equal.
      + rewrite Nat.eqb_refl, orb_true_r. apply andb_false_r.
      + apply Hs in I. now rewrite I, Mx.
      + intros y _ Hy. apply Nat.eqb_neq in Hy. now rewrite Hy, orb_false_r.
    - rewrite (cnt_ext _ (fun d => E d n && negb (M d || (d =? x))) (fun d => E d n && negb (M d))).
      + split; [lia|]. f_equal. lia.
      + intros y _. destruct (y =? x) eqn:Exy; [|now rewrite orb_false_r].
        apply Nat.eqb_eq in Exy. subst y. replace (E x n) with false; auto.
        destruct (E x n) eqn:F; auto. apply Hs in F. tauto. }
  constructor; rewrite ?Y, ?D; auto.
  - intros n Hn. rewrite Pr. destruct (smem n succs && active v n); auto.
    specialize (vi_pred0 n Hn). destruct (dget (v_pred v) n); [discriminate|auto].
  - rewrite Rd. apply nodup_app_intro; auto using NoDup_filter.
    intros s I1 I2. apply vi_ready0 in I1. apply filter_In in I2. destruct I2 as [_ I2].
    destruct I1 as (_ & _ & _ & I1). rewrite I1 in I2. now rewrite andb_false_r in I2.
  - intros n. rewrite Rd, in_app_iff, vi_ready0, filter_In, andb_true_iff, active_true. split.
    + intros [(H1 & H2 & H3 & H4)|(H1 & (H2 & H3) & H4)].
      * repeat split; auto. destruct (Q n H1 H2 H3) as (k & p & A & B & P1 & P2).
        rewrite A in H4. injection H4 as ->. rewrite P2. f_equal. destruct (smem n succs); lia.
      * assert (In n K) by (apply HK, Hs, H1). repeat split; auto.
        destruct (Q n H H2 H3) as (k & p & A & B & P1 & P2). rewrite A in H4.
        apply smem_true in H1. rewrite H1 in P2. rewrite P2. destruct p as [|[]|]; try discriminate. auto.
    + intros (H1 & H2 & H3 & H4). destruct (Q n H1 H2 H3) as (k & p & A & B & P1 & P2).
      rewrite P2 in H4. injection H4 as H4. destruct (smem_in n succs) as [I|I].
      * right. repeat split; auto. rewrite A. replace p with 1%Z by lia. auto.
      * left. repeat split; auto. rewrite A. f_equal. lia.
  - intros n H1 H2 H3. destruct (Q n H1 H2 H3) as (k & p & A & B & P1 & P2).
    exists k. split; auto. rewrite P2. f_equal. lia.
Qed.

Lemma VI_done K E L C v N ns : VI K E L C v -> dkeys N = K -> (forall d n, E d n = edge N d n) -> NI N ->
  NoDup ns -> (forall n, In n ns -> In n (v_yielded v)) ->
  exists v', v_do_done N v ns = (v', Ok tt) /\ v_graph v' = v_graph v /\
    (forall n, In n (v_yielded v') <-> In n (v_yielded v) /\ ~ In n ns) /\
    (forall n, In n (v_done v') <-> In n (v_done v) \/ In n ns) /\
    VI K E L C v'.
Proof.
  intros [H HC] HK HE HN ND HY.
  assert (Lp : forall ns M v0, NoDup ns -> (forall n, In n ns -> In n (v_yielded v0) /\ M n = false) ->
     VIg K E L M v0 ->
     exists v', v_done_loop N v0 ns = (v', Ok tt) /\ v_graph v' = v_graph v0 /\
       v_yielded v' = v_yielded v0 /\ v_done v' = v_done v0 /\
       v_conf v' = v_conf v0 /\ v_rconf v' = v_rconf v0 /\
       VIg K E L (fun d => M d || smem d ns) v').
  { clear ns ND HY H HC v. unfold v_done_loop. induction ns as [|x t IH]; intros M v ND HY H; cbn [for_each].
    - exists v. do 6 (split; auto). eapply VIg_ext; [| |exact H]; intros; cbn; rewrite ?orb_false_r; tauto.
    - inversion ND; subst. destruct (HY x) as [Yx Mx]; [cbn; auto|].
      assert (Kx : In x (dkeys N)) by (eapply (vi_yk _ _ _ _ _ H); eauto).
      rewrite (proj2 (dmem_true N x) Kx), (proj2 (smem_true x (v_yielded v)) Yx). cbn [negb].
      destruct (VIg_mark (dkeys N) E L M v x (succs_of N x)) as (v1 & E1 & G1 & Y1 & D1 & C1 & R1 & V1); auto.
      { apply HN. } { intros s. rewrite HE. symmetry. apply edge_succ. }
      { intros s. rewrite HE. apply HN. }
      rewrite E1. destruct (IH (fun d => M d || (d =? x)) v1) as (v' & E' & G' & Y' & D' & C' & R' & V'); auto.
      { intros n Hn. rewrite Y1. split; [apply HY; cbn; auto|].
        destruct (HY n) as [_ Mn]; [cbn; auto|]. rewrite Mn. cbn. apply Nat.eqb_neq. congruence. }
      exists v'. split; auto. do 5 (split; [congruence|]).
      eapply VIg_ext; [| |exact V']; [|tauto]. intros d n _ _. cbn. now rewrite orb_assoc. }
  destruct (Lp ns (fun d => smem d (v_done v)) v ND) as (v' & E' & G' & Y' & D' & C' & R' & V'); auto.
  { intros n Hn. split; auto. apply smem_false. eapply vi_disj; eauto. }
  unfold v_do_done. rewrite E'. eexists. split; [reflexivity|]. cbn. split; auto.
  split; [intros n; rewrite in_sdiff, Y'; tauto|].
  split; [intros n; rewrite in_sunion, D'; tauto|].
  split.
  - destruct V'. rewrite Y', D' in *.
    assert (Q : forall n, (~ In n (sdiff (v_yielded v) ns) /\ ~ In n (sunion (v_done v) ns)) <->
                          (~ In n (v_yielded v) /\ ~ In n (v_done v))).
    { intros n. rewrite in_sdiff, in_sunion. specialize (HY n).
      destruct (in_dec Nat.eq_dec n (v_yielded v)), (in_dec Nat.eq_dec n ns); tauto. }
    constructor; cbn; rewrite ?Y', ?D'; auto using nodup_sdiff, nodup_sunion.
    + intros n I. apply in_sdiff in I. apply vi_yk0. tauto.
    + intros n I. apply in_sunion in I. destruct I as [I|I]; auto.
    + intros n. rewrite in_sdiff, in_sunion. intros [I1 I2] [I3|I3]; auto. eapply vi_disj0; eauto.
    + intros n. rewrite vi_ready0. specialize (Q n). tauto.
    + intros n H1 H2 H3. destruct (proj1 (Q n)) as [H4 H5]; auto.
      destruct (vi_cnt0 n H1 H4 H5) as [k [A B]]. exists k. split; auto. rewrite A. do 3 f_equal.
      apply cnt_ext. intros x _. do 2 f_equal. apply eq_true_iff_eq.
      fold (smem x (sunion (v_done v) ns)). rewrite orb_true_iff, !smem_true, in_sunion. tauto.
  - destruct HC. constructor; cbn; rewrite ?C', ?R'; auto.
Qed.

Lemma VI_take_ready K E L C v : VI K E L C v ->
  VI K E L C (fst (v_take_ready v)).
Proof.
  intros [H HC]. split.
  - destruct H. constructor; cbn; auto using nodup_sunion, NoDup_nil.
    + intros n I. apply in_sunion in I. destruct I as [I|I]; auto. apply vi_ready0 in I. tauto.
    + intros n I. apply in_sunion in I. destruct I as [I|I]; auto. apply vi_ready0 in I. tauto.
    + intros n. split; [tauto|]. intros (H1 & H2 & H3 & H4). rewrite in_sunion in H2. apply H2. right.
      apply vi_ready0. tauto.
    + intros n H1 H2 H3. rewrite in_sunion in H2. apply vi_cnt0; auto.
  - destruct HC. constructor; cbn; auto.
Qed.

(** clean-up of conflicts on removal *)
Lemma clear_fold node values : forall other, dwf other ->
  let other' := fold_left (fun other v =>
         let s := sdiscard node (match dget other v with Some s => s | None => [] end) in
         match s with [] => ddel other v | _ => dset other v s end) values other in
  dwf other' /\ forall v x, rel other' v x <-> rel other v x /\ ~ (x = node /\ In v values).
Proof.
  induction values as [|a t IH]; intros other W; cbn [fold_left].
  - split; auto. intros. cbn. tauto.
  - set (s := sdiscard node (match dget other a with Some s => s | None => [] end)).
    set (o1 := match s with [] => ddel other a | _ => dset other a s end).
    assert (G1 : forall v, dget o1 v = if v =? a then match s with [] => None | _ => Some s end else dget other v).
    { intros v. unfold o1. destruct s eqn:Es.
      - rewrite dget_ddel by apply W. auto.
      - rewrite dget_dset. auto. }
    assert (W1 : dwf o1).
    { split.
      - unfold o1. destruct s; [rewrite dkeys_ddel; apply nodup_lremove, W|apply nodup_dset, W].
      - intros v l. rewrite G1. destruct (v =? a); [|apply W]. destruct s; [discriminate|].
        intros [= <-]. discriminate. }
    assert (R1 : forall v x, rel o1 v x <-> rel other v x /\ ~ (x = node /\ v = a)).
    { intros v x. unfold rel. rewrite G1. destruct (v =? a) eqn:Ev.
      - apply Nat.eqb_eq in Ev. subst v.
        assert (Is : In x s <-> (exists l, dget other a = Some l /\ In x l) /\ x <> node).
        { unfold s. rewrite in_sdiscard. destruct (dget other a) as [l|].
          - split; [intros [? ?]; split; eauto|]. intros [[l' [[= <-] ?]] ?]. auto.
          - cbn. split; [tauto|]. intros [[l' [[=] _]] _]. }
        transitivity (In x s).
        + destruct s as [|b s']; [split; [intros [? [[=] _]]|intros []]|].
          split; [intros [l [[= <-] I]]; auto|eauto].
        + rewrite Is. intuition.
      - apply Nat.eqb_neq in Ev. intuition. }
    destruct (IH o1 W1) as [W2 R2]. split; auto. intros v x. rewrite R2, R1. cbn. intuition.
Qed.
Lemma clear_pass_spec this other node : dwf this -> dwf other ->
  (forall d n, rel this d n <-> rel other n d) ->
  let '(t', o') := clear_pass this other node in
  dwf t' /\ dwf o' /\ (forall d n, rel t' d n <-> rel this d n /\ d <> node) /\
  (forall d n, rel o' n d <-> rel this d n /\ d <> node).
Proof.
  intros W1 W2 R. unfold clear_pass. destruct (dget this node) as [[|a l]|] eqn:G.
  - exfalso. now apply (proj2 W1 node []).
  - destruct (clear_fold node (a :: l) other W2) as [W3 R3].
    set (o' := fold_left _ (a :: l) other) in *.
    assert (R4 : forall d n, rel (ddel this node) d n <-> rel this d n /\ d <> node).
    { intros d n. unfold rel. rewrite dget_ddel by apply W1. destruct (d =? node) eqn:Ed.
      - apply Nat.eqb_eq in Ed. subst. split; [intros [? [[=] _]]|tauto].
      - apply Nat.eqb_neq in Ed. tauto. }
    split; [|split; [exact W3|split; [exact R4|]]].
    + split; [rewrite dkeys_ddel; apply nodup_lremove, W1|]. intros d s.
      rewrite dget_ddel by apply W1. destruct (d =? node); [discriminate|apply W1].
    + intros d n. rewrite (R3 n d), <- R.
      assert (d = node -> rel this d n -> In n (a :: l)).
      { intros -> [s [Q I]]. rewrite G in Q. injection Q as <-. auto. }
      destruct (Nat.eq_dec d node) as [->|]; tauto.
  - split; [auto|split; [auto|]].
    assert (forall d n, rel this d n -> d <> node).
    { intros d n [s [Q _]] ->. congruence. }
    split; intros d n; rewrite <- ?R; specialize (H d n); tauto.
Qed.
Lemma CI_clear K C v node : CI K C v ->
  CI K (fun d n => C d n /\ d <> node /\ n <> node) (v_clear_conflicts v node).
Proof.
  intros []. unfold v_clear_conflicts.
  destruct (dmem node (v_conf v) || dmem node (v_rconf v)) eqn:B.
  - pose proof (clear_pass_spec (v_conf v) (v_rconf v) node ci_wf0 ci_wfr0) as P1.
    destruct (clear_pass (v_conf v) (v_rconf v) node) as [c1 r1].
    destruct P1 as (A1 & A2 & A3 & A4). { intros. now rewrite ci_c0, ci_r0. }
    pose proof (clear_pass_spec r1 c1 node A2 A1) as P2.
    destruct (clear_pass r1 c1 node) as [r2 c2].
    destruct P2 as (B1 & B2 & B3 & B4). { intros. now rewrite A3, A4. }
    constructor; cbn; auto.
    + intros d n. rewrite B4, A4, ci_c0. tauto.
    + intros d n. rewrite B3, A4, ci_c0. tauto.
    + intros d n Q. apply ci_sub0. tauto.
  - apply orb_false_iff in B. unfold dmem in B.
    assert (forall d n, C d n -> d <> node /\ n <> node).
    { intros d n Q. split; intros ->.
      - apply ci_c0 in Q. destruct Q as [s [G _]]. rewrite G in B. easy.
      - apply ci_r0 in Q. destruct Q as [s [G _]]. rewrite G in B. easy. }
    constructor; auto.
    + intros d n. rewrite ci_c0. specialize (H d n). tauto.
    + intros d n. rewrite ci_r0. specialize (H d n). tauto.
    + intros d n Q. apply ci_sub0. tauto.
Qed.

Lemma VI_remove_node K E L C v x succs : VI K E L C v -> In x K -> NoDup succs ->
  (forall s, In s succs <-> E x s = true /\ s <> x) -> (forall d n, E d n = true -> In n K) ->
  exists v', v_remove_node v x succs = (v', Ok tt) /\ v_graph v' = v_graph v /\
    (forall n, In n (v_yielded v') <-> In n (v_yielded v) /\ n <> x) /\
    (forall n, In n (v_done v') <-> In n (v_done v) /\ n <> x) /\
    VI (lremove x K) (fun d n => E d n && negb (d =? x) && negb (n =? x))
       (fun n => L n /\ n <> x) (fun d n => C d n /\ d <> x /\ n <> x) v'.
Proof.
  intros [H HC] Ix ND Hs HK.
  pose proof (CI_clear K C v x HC) as HC1.
  assert (F : forall n, In n (lremove x K) <-> In n K /\ n <> x) by (intros; apply in_lremove, H).
  assert (HC2 : CI (lremove x K) (fun d n => C d n /\ d <> x /\ n <> x) (v_clear_conflicts v x)).
  { destruct HC1. constructor; auto. intros d n Q. rewrite !F. specialize (ci_sub0 d n Q). tauto. }
  unfold v_remove_node.
  assert (V1 : exists c r, v_clear_conflicts v x = set_confs v c r).
  { unfold v_clear_conflicts. destruct (_ || _).
    - destruct (clear_pass (v_conf v) (v_rconf v) x) as [c1 r1]. destruct (clear_pass r1 c1 x) as [r2 c2]. eauto.
    - exists (v_conf v), (v_rconf v). now destruct v. }
  destruct V1 as (c & r & V1). rewrite V1 in *. cbn [v_done set_confs v_ready v_yielded v_pred].
  destruct (smem_in x (v_done v)) as [Dx|Dx].
  - eexists. split; [reflexivity|]. cbn. split; auto.
    split. { intros n. split; [|tauto]. intros Q. split; auto. intros ->. eapply vi_disj; eauto. }
    split; [intros n; apply in_sdiscard|]. split.
    2:{ destruct HC2. constructor; auto. }
    destruct H. constructor; cbn; auto using nodup_lremove, nodup_sdiscard.
    + intros n Hn. apply vi_pred0. apply F in Hn. tauto.
    + intros n Hn. apply F. split; auto. intros ->. eapply vi_disj0; eauto.
    + intros n Hn. apply in_sdiscard in Hn. destruct Hn. apply F. split; auto.
    + intros n Hn. rewrite in_sdiscard. intros [Q _]. eapply vi_disj0; eauto.
    + intros n. rewrite vi_ready0, F, in_sdiscard. split; [|tauto].
      intros (H1 & H2 & H3 & H4). repeat split; auto. congruence. tauto.
    + intros n H1 H2 H3. apply F in H1. destruct H1 as [H1 Nx]. rewrite in_sdiscard in H3.
      destruct (vi_cnt0 n H1 H2) as [k [A B]]; [tauto|]. exists k. split; [|rewrite B; tauto].
      rewrite A. do 3 f_equal. rewrite cnt_lremove by auto. apply cnt_ext. intros y _.
      apply Nat.eqb_neq in Nx. rewrite Nx. cbn. rewrite andb_true_r. rewrite (Nat.eqb_sym x y).
      destruct (y =? x) eqn:Ey; cbn.
      * apply Nat.eqb_eq in Ey. subst y. apply smem_true in Dx. rewrite Dx. now rewrite !andb_false_r.
      * rewrite !andb_true_r. do 2 f_equal. fold (smem y (sdiscard x (v_done v))). apply eq_true_iff_eq. rewrite !smem_true, in_sdiscard.
        apply Nat.eqb_neq in Ey. tauto.
    + intros n [Q1 Q2]. apply F. auto.
  - set (v2 := if smem x (v_ready v) then _ else _).
    assert (V2 : v_graph v2 = v_graph v /\ v_pred v2 = v_pred v /\ v_yielded v2 = v_yielded v /\
                 v_done v2 = v_done v /\ v_conf v2 = c /\ v_rconf v2 = r /\ v_ready v2 = lremove x (v_ready v)).
    { unfold v2. destruct (smem_in x (v_ready v)); cbn; repeat split; auto. symmetry. now apply lremove_notin. }
    clearbody v2. destruct V2 as (G2 & P2 & Y2 & D2 & C2 & R2 & Rd2).
    cbn [v_pred set_yielded]. rewrite P2.
    assert (PK : In x (dkeys (v_pred v))).
    { apply dget_some. pose proof (vi_pred _ _ _ _ _ H x Ix). destruct (dget (v_pred v) x); [eauto|tauto]. }
    rewrite (proj2 (dmem_true _ _) PK).
    set (v3 := set_pred _ _).
    assert (V3 : v_graph v3 = v_graph v /\ v_pred v3 = ddel (v_pred v) x /\ v_yielded v3 = sdiscard x (v_yielded v) /\
                 v_done v3 = v_done v /\ v_conf v3 = c /\ v_rconf v3 = r /\ v_ready v3 = lremove x (v_ready v)).
    { unfold v3. cbn. rewrite Y2, D2, Rd2. repeat split; auto. }
    clearbody v3. clear v2 G2 P2 Y2 D2 C2 R2 Rd2. destruct V3 as (G3 & P3 & Y3 & D3 & C3 & R3 & Rd3).
    assert (DG : forall n, n <> x -> dget (v_pred v3) n = dget (v_pred v) n).
    { intros n Q. rewrite P3, dget_ddel by apply H. apply Nat.eqb_neq in Q. now rewrite Q. }
    destruct (mark_done_raw succs v3 ND) as (v' & Eq & G & Y & D & Cf & R & Pr & Nk & Rd).
    { intros s I _. apply Hs in I. rewrite DG by tauto. apply (vi_pred _ _ _ _ _ H). eapply HK. apply I. }
    exists v'. split; auto. split; [congruence|].
    split. { intros n. rewrite Y, Y3. apply in_sdiscard. }
    split. { intros n. rewrite D, D3. split; [|tauto]. intros Q. split; auto. congruence. }
    split.
    2:{ destruct HC2. cbn in *. constructor; rewrite ?Cf, ?R, ?C3, ?R3; auto. }
    assert (Act : forall n, n <> x -> active v3 n = active v n).
    { intros n Q. apply eq_true_iff_eq. rewrite !active_true, Y3, D3, in_sdiscard. tauto. }
    destruct H.
    assert (Q : forall n, In n K -> n <> x -> ~ In n (v_yielded v) -> ~ In n (v_done v) ->
      exists k p, dget (v_pred v) n = Some p /\ (k <> 0 <-> L n) /\
        p = (Z.of_nat (cnt (lremove x K) (fun d => E d n && negb (d =? x)%nat && negb (n =? x)%nat && negb (smem d (v_done v))) + k)
             + (if smem n succs then 1 else 0))%Z /\
        dget (v_pred v') n = Some (p - if smem n succs then 1 else 0)%Z).
    { intros n H1 Nx H2 H3. destruct (vi_cnt0 n H1 H2 H3) as [k [A B]]. exists k. eexists. split; [exact A|].
      split; auto. rewrite Pr, Act, DG, A by auto.
      replace (active v n) with true by (symmetry; now apply active_true).
      rewrite andb_true_r. rewrite cnt_lremove by auto.
      rewrite (cnt_ext _ (fun y => E y n && negb (y =? x) && negb (n =? x) && negb (smem y (v_done v)) && negb (x =? y))
                 (fun d => E d n && negb (smem d (v_done v)) && negb (d =? x))).
      2:{ intros y _. apply Nat.eqb_neq in Nx. rewrite Nx, (Nat.eqb_sym x y). cbn.
          destruct (E y n), (smem y (v_done v)), (y =? x); auto. }
      destruct (smem_in n succs) as [I|I].
      - rewrite (cnt_flip K (fun d => E d n && negb (smem d (v_done v)) && negb (d =? x)) _ x); auto.
        + split; [lia|]. cbn. f_equal.
        + rewrite Nat.eqb_refl. apply andb_false_r.
        + apply Hs in I. apply smem_false in Dx. now rewrite (proj1 I), Dx.
        + intros y _ Hy. apply Nat.eqb_neq in Hy. now rewrite Hy, andb_true_r.
      - rewrite (cnt_ext _ (fun d => E d n && negb (smem d (v_done v)) && negb (d =? x)) (fun d => E d n && negb (smem d (v_done v)))).
        + split; [lia|]. f_equal. lia.
        + intros y _. destruct (y =? x) eqn:Exy; [|now rewrite andb_true_r].
          apply Nat.eqb_eq in Exy. subst y. replace (E x n) with false; auto.
          destruct (E x n) eqn:Fe; auto. exfalso. apply I, Hs. auto. }
    constructor; auto using nodup_lremove.
    + intros n Hn. apply F in Hn. rewrite Pr, DG, Act by tauto.
      destruct (smem n succs && active v n); [|apply vi_pred0; tauto].
      specialize (vi_pred0 n (proj1 Hn)). destruct (dget (v_pred v) n); [discriminate|auto].
    + apply Nk. rewrite P3, dkeys_ddel. apply nodup_lremove; auto.
    + rewrite Rd, Rd3. apply nodup_app_intro; auto using NoDup_filter, nodup_lremove.
      intros s I1 I2. apply in_lremove in I1; auto. destruct I1 as [I1 Nx].
      apply vi_ready0 in I1. apply filter_In in I2. destruct I2 as [_ I2].
      rewrite DG in I2 by auto. destruct I1 as (_ & _ & _ & I1). rewrite I1 in I2. now rewrite andb_false_r in I2.
    + rewrite Y, Y3. auto using nodup_sdiscard.
    + now rewrite D, D3.
    + intros n. rewrite Y, Y3, in_sdiscard, F. intros [? ?]; auto.
    + intros n. rewrite D, D3, F. intros Q1. split; auto. congruence.
    + intros n. rewrite Y, Y3, D, D3, in_sdiscard. intros [? ?]; auto.
    + intros n. rewrite Rd, Rd3, in_app_iff, in_lremove, vi_ready0, filter_In, andb_true_iff, active_true, Y, Y3, D, D3, F, in_sdiscard by auto. split.
      * intros [((H1 & H2 & H3 & H4) & H5)|(H1 & (H2 & H3) & H4)].
        -- repeat split; auto. tauto. destruct (Q n H1 H5 H2 H3) as (k & p & A & B & Q1 & Q2).
           rewrite A in H4. injection H4 as ->. rewrite Q2. f_equal. destruct (smem n succs); lia.
        -- pose proof H1 as H1'. apply Hs in H1'. destruct H1' as [He Nx].
           assert (In n K) by (eapply HK; eauto). repeat split; auto.
           assert (~ In n (v_yielded v)) by tauto.
           destruct (Q n H Nx H0 H3) as (k & p & A & B & Q1 & Q2). rewrite DG, A in H4 by auto.
           apply smem_true in H1. rewrite H1 in Q2. rewrite Q2. destruct p as [|[]|]; try discriminate. auto.
      * intros ((H1 & Nx) & H2 & H3 & H4). assert (~ In n (v_yielded v)) by tauto.
        destruct (Q n H1 Nx H H3) as (k & p & A & B & Q1 & Q2).
        rewrite Q2 in H4. injection H4 as H4. destruct (smem_in n succs) as [I|I].
        -- right. repeat split; auto. rewrite DG, A by auto. replace p with 1%Z by lia. auto.
        -- left. repeat split; auto. rewrite A. f_equal. lia.
    + intros n. rewrite F, Y, Y3, D, D3, in_sdiscard. intros [H1 Nx] H2 H3.
      assert (~ In n (v_yielded v)) by tauto.
      destruct (Q n H1 Nx H H3) as (k & p & A & B & Q1 & Q2).
      exists k. split; [|rewrite B; tauto]. rewrite Q2. f_equal. lia.
    + intros n [Q1 Q2]. apply F. auto.
Qed.
