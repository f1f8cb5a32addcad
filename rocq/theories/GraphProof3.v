(** cycle(): the counting phase and the depth-first search. *)
From Verif Require Import PyBase PyBaseProof PyDict PyDictProof GraphModel GraphSpec GraphProof1 GraphProof2.
From Coq Require Import Lia.

Definition edgeP (N : nodes_t) (d n : nat) : Prop := edge N d n = true.

Lemma reaches_snoc e a b c : reaches e a b -> e b c -> reaches e a c.
Proof. induction 1; intros; [eapply reachesS; eauto; constructor; auto|eapply reachesS; eauto]. Qed.
Lemma Acc_no_cycle (e : nat -> nat -> Prop) x : Acc (fun y x => e x y) x -> ~ reaches e x x.
Proof.
  induction 1 as [x _ IH]. intros R. inversion R; subst.
  - apply (IH x); auto.
  - apply (IH b); auto. eapply reaches_snoc; eauto.
Qed.
Lemma reaches_last e a z : reaches e a z -> exists b, e b z /\ (b = a \/ reaches e a b).
Proof.
  induction 1 as [a b H|a b c H _ IH]; [eauto|].
  destruct IH as (b0 & H1 & [Q|H2]); exists b0; split; auto; right; [subst; constructor; auto|eapply reachesS; eauto].
Qed.
Lemma Acc_no_cycle' (e : nat -> nat -> Prop) x : Acc e x -> ~ reaches e x x.
Proof.
  induction 1 as [x _ IH]. intros R. destruct (reaches_last _ _ _ R) as (b & H1 & [->|H2]).
  - now apply (IH x).
  - apply (IH b); auto. eapply reachesS; eauto.
Qed.

(** counting phase *)
Section Kahn.
  Context (N : nodes_t) (HN : NI N).
  Let K := dkeys N.
  Definition cget (c : dict Z) (s : nat) : Z := match dget c s with Some k => k | None => 0%Z end.

  Lemma count_succ_fold l : forall c r2, NoDup l ->
    let '(c', r2') := fold_left count_succ l (c, r2) in
    (forall s, cget c' s = (cget c s - if smem s l then 1 else 0)%Z) /\
    (forall s, In s r2' <-> In s r2 \/ (In s l /\ cget c s = 1%Z)).
  Proof.
    induction l as [|a t IH]; intros c r2 ND; cbn [fold_left].
    - split; intros; cbn; [lia|tauto].
    - inversion ND; subst. unfold count_succ at 2. fold (cget c a).
      set (c1 := dset c a (cget c a - 1)%Z).
      set (r1 := if (cget c a - 1 =? 0)%Z then sadd a r2 else r2).
      specialize (IH c1 r1 H2). destruct (fold_left count_succ t (c1, r1)) as [c' r2'].
      destruct IH as [A B].
      assert (C1 : forall s, cget c1 s = if s =? a then (cget c a - 1)%Z else cget c s).
      { intros s. unfold cget, c1. rewrite dget_dset. destruct (s =? a); auto. }
      split; intros s.
      + rewrite A, C1. cbn [smem existsb]. fold (smem s t). destruct (s =? a) eqn:E; cbn; auto.
        apply Nat.eqb_eq in E. subst. apply smem_false in H1. rewrite H1. lia.
      + rewrite B, C1. unfold r1. cbn [In]. destruct (s =? a) eqn:E.
        * apply Nat.eqb_eq in E. subst s. destruct (cget c a - 1 =? 0)%Z eqn:F.
          -- apply Z.eqb_eq in F. rewrite in_sadd. split; [|tauto]. intros _. right. split; [auto|lia].
          -- apply Z.eqb_neq in F. split; [intuition|]. intros [?|[_ Q]]; auto. lia.
        * apply Nat.eqb_neq in E. destruct (cget c a - 1 =? 0)%Z; rewrite ?in_sadd; intuition congruence.
  Qed.

  (** counts relative to a set [M] of nodes whose edges have been subtracted *)
  Definition kc (M : nat -> bool) (n : nat) : nat := cnt K (fun d => edge N d n && negb (M d)).
  Record KI (M : nat -> bool) (base : nat -> Prop) (c : dict Z) (r2 : list nat) : Prop := mkKI {
    ki_c : forall n, In n K -> cget c n = Z.of_nat (kc M n);
    ki_r : forall n, In n r2 <-> In n K /\ ~ base n /\ kc M n = 0;
  }.
  Lemma kc_step M x n : In x K -> M x = false ->
    kc M n = kc (fun d => M d || (d =? x)) n + if smem n (succs_of N x) then 1 else 0.
  Proof.
    intros Ix Mx. unfold kc. destruct (smem n (succs_of N x)) eqn:E.
    - rewrite (cnt_flip K (fun d => edge N d n && negb (M d || (d =? x))) _ x); auto.
      + lia.
      + apply HN.
      + rewrite Nat.eqb_refl, orb_true_r. apply andb_false_r.
      + unfold edge. now rewrite E, Mx.
      + intros y _ Hy. apply Nat.eqb_neq in Hy. now rewrite Hy, orb_false_r.
    - rewrite Nat.add_0_r. apply cnt_ext. intros y _. destruct (y =? x) eqn:F; [|now rewrite orb_false_r].
      apply Nat.eqb_eq in F. subst y. unfold edge. now rewrite E.
  Qed.
  Lemma kahn_round l : forall M (base : nat -> Prop) c r2, NoDup l -> (forall x, In x l -> In x K /\ M x = false) ->
    (forall n, In n K -> base n -> kc M n = 0) ->
    KI M base c r2 ->
    let '(c', r2') := fold_left (fun st n => fold_left count_succ (succs_of N n) st) l (c, r2) in
    KI (fun d => M d || smem d l) base c' r2'.
  Proof.
    induction l as [|x t IH]; intros M base c r2 ND HM HB H; cbn [fold_left].
    - destruct H. constructor.
      + intros n Hn. rewrite ki_c0 by auto. unfold kc. f_equal. apply cnt_ext. intros. cbn. now rewrite orb_false_r.
      + intros n. rewrite ki_r0. unfold kc. rewrite (cnt_ext _ (fun d => edge N d n && negb (M d || smem d [])) (fun d => edge N d n && negb (M d))).
        * tauto. * intros. cbn. now rewrite orb_false_r.
    - inversion ND; subst. destruct (HM x) as [Kx Mx]; [cbn; auto|].
      pose proof (count_succ_fold (succs_of N x) c r2 (ni_succs _ HN x)) as P.
      destruct (fold_left count_succ (succs_of N x) (c, r2)) as [c1 r1]. destruct P as [A B].
      set (M1 := fun d => M d || (d =? x)).
      specialize (IH M1 base c1 r1 H3).
      destruct (fold_left (fun st n => fold_left count_succ (succs_of N n) st) t (c1, r1)) as [c' r2'].
      destruct IH as [I1 I2].
      + intros y Hy. destruct (HM y) as [? My]; [cbn; auto|]. split; auto. unfold M1. rewrite My. cbn.
        apply Nat.eqb_neq. congruence.
      + intros n Hn Hb. specialize (HB n Hn Hb). rewrite (kc_step M x n Kx Mx) in HB. unfold M1. lia.
      + destruct H. constructor.
        * intros n Hn. rewrite A, ki_c0, (kc_step M x n Kx Mx) by auto. unfold M1. destruct (smem n (succs_of N x)); lia.
        * intros n. rewrite B, ki_r0. split.
          -- intros [(Q1 & Q2 & Q3)|[Q1 Q2]].
             ++ split; auto. split; auto. rewrite (kc_step M x n Kx Mx) in Q3. unfold M1. lia.
             ++ assert (Hn : In n K) by (apply edge_succ in Q1; eapply ni_closed; eauto).
                rewrite ki_c0 in Q2 by auto. pose proof (kc_step M x n Kx Mx) as Q4.
                apply smem_true in Q1. rewrite Q1 in Q4. split; auto. split; [|unfold M1; lia].
                intros Hb. specialize (HB n Hn Hb). lia.
          -- intros (Q1 & Q2 & Q3). unfold M1 in Q3. pose proof (kc_step M x n Kx Mx) as Q4.
             destruct (smem_in n (succs_of N x)) as [J|J].
             ++ right. split; auto. rewrite ki_c0 by auto. lia.
             ++ left. repeat split; auto. lia.
      + assert (X : forall n, kc (fun d => M1 d || smem d t) n = kc (fun d => M d || smem d (x :: t)) n).
        { intros n. apply cnt_ext. intros d _. unfold M1. cbn [smem existsb]. fold (smem d t). now rewrite orb_assoc. }
        constructor.
        * intros n Hn. rewrite <- X. auto.
        * intros n. rewrite <- X. auto.
  Qed.

  Record KS (done ready : list nat) (c : dict Z) : Prop := mkKS {
    ks_nd : NoDup done; ks_nr : NoDup ready;
    ks_dk : forall n, In n done -> In n K;
    ks_dj : forall n, In n ready -> ~ In n done;
    ks_c : forall n, In n K -> cget c n = Z.of_nat (kc (fun d => smem d done) n);
    ks_z : forall n, In n K -> (In n done \/ In n ready <-> kc (fun d => smem d done) n = 0);
    ks_rk : forall n, In n ready -> In n K;
    ks_acc : forall n, In n done -> Acc (edgeP N) n
  }.
  Lemma kc_zero M n : kc M n = 0 <-> forall d, edgeP N d n -> M d = true.
  Proof.
    unfold kc. rewrite cnt_zero. split.
    - intros H d Hd. specialize (H d (edge_key _ _ _ Hd)). unfold edgeP in Hd. rewrite Hd in H.
      now destruct (M d).
    - intros H d _. destruct (edge N d n) eqn:E; auto. cbn. now rewrite (H d E).
  Qed.
  Lemma count_succ_nodup l : forall st, NoDup (snd st) -> NoDup (snd (fold_left count_succ l st)).
  Proof.
    induction l as [|a t IH]; intros [c r] H; cbn [fold_left]; auto. apply IH. cbn.
    destruct (_ =? 0)%Z; auto using nodup_sadd.
  Qed.
  Lemma round_nodup l : forall st, NoDup (snd st) ->
    NoDup (snd (fold_left (fun st n => fold_left count_succ (succs_of N n) st) l st)).
  Proof. induction l; intros; cbn [fold_left]; auto. apply IHl, count_succ_nodup; auto. Qed.

  Context (ord : list nat -> list nat) (HO : set_order ord).
  Lemma kahn_spec rounds : forall done ready c, KS done ready c -> length done + rounds > length K ->
    let D := kahn ord N rounds c done ready in
    NoDup D /\ (forall n, In n D -> In n K) /\
    (forall n, In n K -> (In n D <-> forall d, edgeP N d n -> In d D)) /\
    (forall n, In n D -> Acc (edgeP N) n).
  Proof.
    induction rounds as [|r IH]; intros done ready c H L.
    - exfalso. pose proof (NoDup_incl_length (ks_nd _ _ _ H) (ks_dk _ _ _ H)). lia.
    - cbn [kahn]. destruct ready as [|x0 rt] eqn:Er.
      + destruct H. cbn. split; auto. split; auto. split; auto.
        intros n Hn.
        specialize (ks_z0 n Hn). rewrite kc_zero in ks_z0. cbn [In] in ks_z0.
        split.
        * intros Q d Hd. apply smem_true. apply ks_z0; auto.
        * intros Q. assert (In n done \/ False) as [|[]]; auto.
          apply ks_z0. intros d Hd. apply smem_true. auto.
      + assert (NE : ready <> []) by congruence. rewrite <- Er in *. clear x0 rt Er. pose proof H as H'. destruct H'.
        pose proof (kahn_round (ord ready) (fun d => smem d done) (fun n => In n done \/ In n ready) c []) as R.
        pose proof (round_nodup (ord ready) (c, []) (NoDup_nil _)) as RN.
        destruct (fold_left _ (ord ready) (c, [])) as [c' r2]. cbn [snd] in RN.
        assert (Po : forall x, In x (ord ready) <-> In x ready).
        { intros x. split; apply Permutation_in; [apply HO|apply Permutation_sym, HO]. }
        destruct R as [R1 R2].
        * eapply Permutation_NoDup; [apply Permutation_sym, HO|auto].
        * intros x Hx. apply Po in Hx. split; auto. apply smem_false. auto.
        * intros n Hn. apply ks_z0. auto.
        * constructor.
          -- auto.
          -- intros n. cbn. split; [tauto|]. intros (Q1 & Q2 & Q3). apply ks_z0 in Q3; auto.
        * assert (X : forall n, kc (fun d => smem d done || smem d (ord ready)) n = kc (fun d => smem d (sunion done ready)) n).
          { intros n. apply cnt_ext. intros d _. do 2 f_equal. apply eq_true_iff_eq.
            rewrite orb_true_iff, !smem_true, in_sunion, Po. tauto. }
          assert (Z0 : forall n, In n K -> (In n done \/ In n ready) -> kc (fun d => smem d (sunion done ready)) n = 0).
          { intros n Hn Q. apply ks_z0 in Q; auto. rewrite kc_zero in *. intros d Hd. specialize (Q d Hd).
            rewrite smem_true in *. apply in_sunion. auto. }
          apply IH.
          -- constructor; auto using nodup_sunion.
             ++ intros n Q. apply in_sunion in Q. destruct Q; auto.
             ++ intros n Q. rewrite in_sunion. apply R2 in Q. tauto.
             ++ intros n Hn. rewrite <- X. auto.
             ++ intros n Hn. rewrite in_sunion, R2, X. split.
                ** intros [Q|(_ & _ & Q)]; auto.
                ** intros Q. destruct (in_dec Nat.eq_dec n done), (in_dec Nat.eq_dec n ready); auto.
                   right. repeat split; auto. tauto.
             ++ intros n Q. apply R2 in Q. tauto.
             ++ intros n Q. apply in_sunion in Q. destruct Q as [Q|Q]; auto.
                constructor. intros d Hd. apply ks_acc0.
                assert (Z : kc (fun d => smem d done) n = 0) by (apply ks_z0; auto).
                rewrite kc_zero in Z. apply smem_true. auto.
          -- assert (length (sunion done ready) > length done); [|lia].
             destruct ready as [|x t]; [congruence|].
             assert (NoDup (x :: done)). { constructor; auto. apply ks_dj0. cbn. auto. }
             eapply Nat.lt_le_trans; [|apply (NoDup_incl_length H0)].
             ++ cbn. lia.
             ++ intros y [<-|Q]; apply in_sunion; cbn; auto.
  Qed.
End Kahn.

Lemma dget_map_pc (N : nodes_t) n :
  dget (map (fun '(n, (p, _)) => (n, p)) N) n = match dget N n with Some (p, _) => Some p | None => None end.
Proof. induction N as [|[a [p s]] t IH]; cbn; auto. destruct (n =? a); auto. Qed.
Lemma dkeys_map_pc (N : nodes_t) : dkeys (map (fun '(n, (p, _)) => (n, p)) N) = dkeys N.
Proof. unfold dkeys. rewrite map_map. apply map_ext. now intros [a [p s]]. Qed.

Theorem kahn_done_spec N ord : NI N -> set_order ord ->
  let D := kahn_done ord N in
  NoDup D /\ (forall n, In n D -> In n (dkeys N)) /\
  (forall n, In n (dkeys N) -> (In n D <-> forall d, edgeP N d n -> In d D)) /\
  (forall n, In n D -> Acc (edgeP N) n).
Proof.
  intros HN HO. unfold kahn_done.
  set (c := map (fun '(n, (p, _)) => (n, p)) N).
  set (r := map fst (filter (fun '(_, p) => (p =? 0)%Z) c)).
  assert (C : forall n, In n (dkeys N) -> cget c n = pc_of N n).
  { intros n Hn. unfold cget, c. rewrite dget_map_pc. unfold pc_of. now destruct (dget N n) as [[p s]|]. }
  assert (R : forall n, In n r <-> In n (dkeys N) /\ pc_of N n = 0%Z).
  { intros n. unfold r. rewrite in_map_iff. split.
    - intros [[n' p] [<- I]]. apply filter_In in I. destruct I as [I E]. apply Z.eqb_eq in E. subst p.
      cbn. unfold c in I. apply in_map_iff in I. destruct I as [[a [p s]] [[= -> ->] I]].
      split. { apply in_map_iff. exists (n', (0%Z, s)). auto. }
      clear - I HN. destruct HN as [HK _ _ _]. unfold pc_of. induction N as [|[a [p' s']] t IH]; [destruct I|].
      cbn in *. inversion HK; subst. destruct I as [[= -> -> ->]|I].
      + now rewrite Nat.eqb_refl.
      + destruct (n' =? a) eqn:E; [|auto]. apply Nat.eqb_eq in E. subst a. exfalso. apply H1.
        apply in_map_iff. exists (n', (0%Z, s)). auto.
    - intros [I E]. exists (n, 0%Z). split; auto. apply filter_In. split; [|auto].
      rewrite <- E. apply dget_in. unfold c. rewrite dget_map_pc. unfold pc_of.
      apply dget_some in I. destruct I as [[p s] I]. now rewrite I. }
  assert (KC : forall n, In n (dkeys N) -> pc_of N n = Z.of_nat (kc N (fun d => smem d []) n)).
  { intros n Hn. rewrite (ni_counts _ HN) by auto. f_equal. apply cnt_ext. intros. cbn. now rewrite andb_true_r. }
  apply kahn_spec; auto.
  2:{ cbn. rewrite <- (map_length fst N). unfold dkeys. lia. }
  constructor; try easy.
  - constructor.
  - unfold r. assert (NoDup (dkeys c)) by (unfold c; rewrite dkeys_map_pc; apply HN).
    clear - H. unfold dkeys in H. induction c as [|[a p] t IH]; cbn in *; [constructor|].
    inversion H; subst. destruct (p =? 0)%Z; auto. cbn. constructor; auto.
    intros I. apply H2. apply in_map_iff in I. destruct I as [y [<- I]]. apply filter_In in I.
    apply in_map. tauto.
  - intros n Hn. rewrite C by auto. auto.
  - intros n Hn. cbn [In]. rewrite R, KC by auto. split; [intros [[]|[_ ?]]; lia|]. intros. right. split; auto. lia.
  - intros n Hn. apply R in Hn. tauto.
Qed.

(** a finite non-empty set in which every element has a predecessor contains a cycle *)
Lemma chain_app_inv e a b : chain e (a ++ b) -> chain e a /\ chain e b.
Proof.
  induction a as [|x t IH]; cbn [app]; [now split|]. intros H.
  destruct t as [|y t']; cbn in *; [destruct b; [auto|split; [auto|apply H]]|].
  destruct H as [H1 H2]. apply IH in H2. tauto.
Qed.
Lemma chain_reaches e x l y : chain e (x :: l ++ [y]) -> reaches e x y.
Proof.
  revert x. induction l as [|a t IH]; intros x H; cbn in *.
  - constructor. tauto.
  - destruct H as [H1 H2]. eapply reachesS; eauto.
Qed.
Lemma long_chain (e : nat -> nat -> Prop) (R : list nat) : R <> [] ->
  (forall n, In n R -> exists d, In d R /\ e d n) ->
  forall k, exists l, length l = S k /\ chain e l /\ (forall x, In x l -> In x R).
Proof.
  intros NE H. induction k as [|k IH].
  - destruct R as [|x t]; [congruence|]. exists [x]. cbn. repeat split; auto. intros y [<-|[]]. auto.
  - destruct IH as (l & L & C & I). destruct l as [|x t]; [discriminate|].
    destruct (H x) as (d & Hd & He); [apply I; cbn; auto|].
    exists (d :: x :: t). cbn in *. repeat split; auto. intros y [<-|Q]; auto.
Qed.
Lemma dup_split (l : list nat) : ~ NoDup l -> exists x a b c, l = a ++ x :: b ++ x :: c.
Proof.
  induction l as [|x t IH]; intros H; [exfalso; apply H; constructor|].
  destruct (in_dec Nat.eq_dec x t) as [I|I].
  - apply in_split in I. destruct I as (b & c & ->). exists x, [], b, c. auto.
  - destruct IH as (y & a & b & c & ->). { intros Q. apply H. constructor; auto. }
    exists y, (x :: a), b, c. auto.
Qed.
Lemma finite_pred_cycle (e : nat -> nat -> Prop) (R : list nat) : R <> [] ->
  (forall n, In n R -> exists d, In d R /\ e d n) -> exists x, In x R /\ reaches e x x.
Proof.
  intros NE H. destruct (long_chain e R NE H (length R)) as (l & L & C & I).
  destruct (dup_split l) as (x & a & b & c & ->).
  - intros ND. pose proof (NoDup_incl_length ND I). lia.
  - exists x. split. { apply I. apply in_or_app. cbn. auto. }
    apply chain_app_inv in C. destruct C as [_ C].
    replace (x :: b ++ x :: c) with ((x :: b ++ [x]) ++ c) in C.
    + apply chain_app_inv in C. eapply chain_reaches. apply C.
    + cbn. now rewrite <- app_assoc.
Qed.

(** the depth-first search *)
Definition from (n : nat) := fix from (l : list nat) := match l with
                     | [] => [] | x :: t => if (n =? x)%nat then l else from t end.
Lemma from_spec n path : In n path -> exists a b, path = a ++ n :: b /\ from n path = n :: b.
Proof.
  induction path as [|x t IH]; cbn; [tauto|]. intros H. destruct (n =? x) eqn:E.
  - apply Nat.eqb_eq in E. subst. exists [], t. auto.
  - apply Nat.eqb_neq in E. destruct IH as (a & b & -> & F); [intuition congruence|].
    exists (x :: a), b. auto.
Qed.
Lemma chain_snoc e l x n : chain e l -> (l <> [] -> e (last l x) n) -> chain e (l ++ [n]).
Proof.
  induction l as [|a t IH]; cbn [app]; intros H1 H2; [exact I|].
  destruct t as [|b t']; cbn in *.
  - split; auto. apply H2. discriminate.
  - split; [tauto|]. apply IH; [tauto|]. intros _. apply H2. discriminate.
Qed.
Lemma last_app_cons {A} (a : list A) x b d : last (a ++ x :: b) d = last (x :: b) d.
Proof. induction a as [|y t IH]; cbn [app]; auto. rewrite <- IH. destruct (t ++ x :: b) eqn:E; auto. destruct t; discriminate. Qed.
Lemma last_indep {A} (l : list A) d d' : l <> [] -> last l d = last l d'.
Proof. induction l as [|x t IH]; [congruence|]. intros _. destruct t; auto. apply IH. discriminate. Qed.

Section Dfs.
  Context (N : nodes_t) (HN : NI N) (D : list nat)
    (HD : forall n, In n (dkeys N) -> (In n D <-> forall d, edgeP N d n -> In d D)).
  Definition remaining (n : nat) : Prop := In n (dkeys N) /\ ~ In n D.
  Let sz := length N.
  Lemma succ_remaining x s : remaining x -> In s (succs_of N x) -> remaining s.
  Proof.
    intros [H1 H2] I. apply edge_succ in I. pose proof (ni_closed _ HN _ _ I) as K. split; auto.
    intros Q. apply H2. exact (proj1 (HD s K) Q x I).
  Qed.
  Lemma succs_length x : length (succs_of N x) <= sz.
  Proof.
    unfold sz. rewrite <- (map_length fst N). apply NoDup_incl_length; [apply HN|].
    intros s I. apply edge_succ in I. eapply ni_closed; eauto.
  Qed.
  Lemma dfs_S f its path : dfs N D (S f) its path =
    match dfs_step N D its path with inl o => o | inr (i, p) => dfs N D f i p end.
  Proof. reflexivity. Qed.

  Lemma dfs_list k : forall l rest path,
    (forall s, In s l -> remaining s) -> NoDup path -> (forall x, In x path -> remaining x) ->
    sz <= length path + k -> chain (edgeP N) path ->
    (path <> [] -> forall s, In s l -> edgeP N (last path 0) s) ->
    (exists m c, m <= length l * S (dfs_fuel sz k) /\ is_cycle (edgeP N) c /\
        forall f, dfs N D (m + f) (l :: rest) path = Found c) \/
    (Forall (Acc (fun y x => edgeP N x y)) l /\
     exists m, m <= length l * S (dfs_fuel sz k) /\
        forall f, dfs N D (m + f) (l :: rest) path = dfs N D f ([] :: rest) path).
  Proof.
    induction k as [|k IHk]; intros l; induction l as [|s l IHl]; intros rest path Hl ND Hp Sz Ch Le;
      try (right; split; [constructor|]; exists 0; split; [cbn; lia|auto]; fail).
    - (* every node is on the path *)
      left. exists 1.
      assert (Is : In s path).
      { destruct (Hl s) as [Ks Ds]; [cbn; auto|].
        assert (incl (dkeys N) path); [|auto].
        apply NoDup_length_incl; auto.
        - unfold dkeys. rewrite map_length. fold sz. lia.
        - intros x Hx. apply (Hp x Hx). }
      destruct (from_spec s path Is) as (a & b & E & F).
      exists (s :: b). split; [cbn; lia|]. split.
      + cbn [is_cycle]. rewrite E in *. split; [eapply nodup_app_r; eauto|].
        split; [apply chain_app_inv in Ch; tauto|].
        rewrite last_app_cons in Le. rewrite (last_indep (s :: b) s 0) by discriminate.
        apply Le; [destruct a; discriminate|cbn; auto].
      + intros f. cbn [Nat.add]. rewrite dfs_S. cbn [dfs_step].
        destruct (Hl s) as [Ks Ds]; [cbn; auto|]. rewrite (proj2 (smem_false _ _) Ds), (proj2 (smem_true _ _) Is).
        change (Found (from s path) = Found (s :: b)). congruence.
    - destruct (Hl s) as [Ks Ds]; [cbn; auto|].
      destruct (in_dec Nat.eq_dec s path) as [Is|Is].
      + left. exists 1.
        destruct (from_spec s path Is) as (a & b & E & F).
        exists (s :: b). split; [cbn; lia|]. split.
        * cbn [is_cycle]. rewrite E in *. split; [eapply nodup_app_r; eauto|].
          split; [apply chain_app_inv in Ch; tauto|].
          rewrite last_app_cons in Le. rewrite (last_indep (s :: b) s 0) by discriminate.
          apply Le; [destruct a; discriminate|cbn; auto].
        * intros f. cbn [Nat.add]. rewrite dfs_S. cbn [dfs_step].
          rewrite (proj2 (smem_false _ _) Ds), (proj2 (smem_true _ _) Is).
          change (Found (from s path) = Found (s :: b)). congruence.
      + (* descend *)
        assert (St : forall f, dfs N D (S f) ((s :: l) :: rest) path = dfs N D f (succs_of N s :: l :: rest) (path ++ [s])).
        { intros f. rewrite dfs_S. cbn [dfs_step].
          now rewrite (proj2 (smem_false _ _) Ds), (proj2 (smem_false _ _) Is). }
        destruct (IHk (succs_of N s) (l :: rest) (path ++ [s])) as [(m & c & Hm & Hc & Hf)|(HA & m & Hm & Hf)].
        * intros x Hx. eapply succ_remaining; eauto. split; auto.
        * apply nodup_app_one; auto.
        * intros x Hx. apply in_app_iff in Hx. destruct Hx as [Hx|[<-|[]]]; auto. split; auto.
        * rewrite app_length. cbn. lia.
        * eapply chain_snoc with (x := 0); eauto. intros Q. apply Le; cbn; auto.
        * intros _ x Hx. rewrite last_last. apply edge_succ in Hx. exact Hx.
        * left. exists (S m), c. split; [|split; auto].
          -- cbn [length]. pose proof (succs_length s).
             assert (m <= sz * S (dfs_fuel sz k)).
             { etransitivity; [exact Hm|]. apply Nat.mul_le_mono_r. auto. }
             cbn [dfs_fuel]. cbn [Nat.mul]. lia.
          -- intros f. cbn [Nat.add]. rewrite St. auto.
        * assert (As : Acc (fun y x => edgeP N x y) s).
          { constructor. intros y Hy. rewrite Forall_forall in HA. apply HA. apply edge_succ. exact Hy. }
          assert (Pop : forall f, dfs N D (S m + S f) ((s :: l) :: rest) path = dfs N D f (l :: rest) path).
          { intros f. cbn [Nat.add]. rewrite St, Hf, dfs_S. cbn [dfs_step].
            destruct (path ++ [s]) eqn:Ep; [destruct path; discriminate|]. rewrite <- Ep. now rewrite removelast_last. }
          assert (B1 : S m + 1 <= S (dfs_fuel sz (S k))).
          { pose proof (succs_length s). assert (m <= sz * S (dfs_fuel sz k)).
            { etransitivity; [exact Hm|]. apply Nat.mul_le_mono_r. auto. }
            cbn [dfs_fuel]. lia. }
          destruct (IHl rest path) as [(m2 & c & Hm2 & Hc & Hf2)|(HA2 & m2 & Hm2 & Hf2)]; auto.
          { intros x Hx. apply Hl. cbn. auto. } { intros Q x Hx. apply Le; cbn; auto. }
          -- left. exists (S m + S m2), c. split; [cbn [length Nat.mul]; lia|]. split; auto.
             intros f. replace (S m + S m2 + f) with (S m + S (m2 + f)) by lia. rewrite Pop. auto.
          -- right. split; [constructor; auto|]. exists (S m + S m2). split; [cbn [length Nat.mul]; lia|].
             intros f. replace (S m + S m2 + f) with (S m + S (m2 + f)) by lia. rewrite Pop. auto.
  Qed.
End Dfs.

(** cycle(): [None] and a clean bit exactly for acyclic graphs, otherwise a real cycle *)
Theorem cycle_spec N ord : NI N -> set_order ord ->
  (acyclic (edgeP N) /\ g_cycle ord N true = (false, Ok None)) \/
  (exists c, is_cycle (edgeP N) c /\ g_cycle ord N true = (true, Ok (Some c))).
Proof.
  intros HN HO. unfold g_cycle. cbn [negb].
  destruct (kahn_done_spec N ord HN HO) as (ND & DK & HD & HA).
  set (D := kahn_done ord N) in *.
  destruct (length D =? length N) eqn:E.
  - left. apply Nat.eqb_eq in E. split; auto. intros n R.
    assert (Kn : In n (dkeys N)).
    { inversion R; subst; eapply edge_key; eauto. }
    apply (Acc_no_cycle' (edgeP N) n); auto. apply HA.
    apply (NoDup_length_incl ND (l' := dkeys N)); auto. unfold dkeys. rewrite map_length. lia.
  - right. apply Nat.eqb_neq in E.
    assert (Rem : forall n, In n (sdiff (dkeys N) D) <-> remaining N D n) by (intros; apply in_sdiff).
    assert (RemO : forall n, In n (ord (sdiff (dkeys N) D)) <-> remaining N D n).
    { intros n. rewrite <- Rem. split; apply Permutation_in; [apply HO|apply Permutation_sym, HO]. }
    assert (NE : sdiff (dkeys N) D <> []).
    { intros Q. apply E. apply Nat.le_antisymm.
      - rewrite <- (map_length fst N). now apply NoDup_incl_length.
      - rewrite <- (map_length fst N). apply NoDup_incl_length; [apply HN|]. intros n Hn.
        destruct (in_dec Nat.eq_dec n D); auto. assert (In n (sdiff (dkeys N) D)) by (apply Rem; split; auto).
        rewrite Q in H. destruct H. }
    destruct (dfs_list N HN D HD (length N) (ord (sdiff (dkeys N) D)) [] []) as [(m & c & Hm & Hc & Hf)|(Ha & m & Hm & Hf)].
    + intros s Hs. now apply RemO.
    + constructor.
    + easy.
    + cbn. lia.
    + exact I.
    + congruence.
    + exists c. split; auto.
      assert (L : length (ord (sdiff (dkeys N) D)) <= length N).
      { rewrite (Permutation_length (HO _)). unfold sdiff. etransitivity; [apply (cnt_le (dkeys N))|].
        unfold dkeys. now rewrite map_length. }
      assert (B : m <= dfs_fuel (length N) (S (length N))).
      { cbn [dfs_fuel]. etransitivity; [exact Hm|].
        transitivity (length N * S (dfs_fuel (length N) (length N))); [apply Nat.mul_le_mono_r; auto|lia]. }
      replace (dfs_fuel (length N) (S (length N))) with (m + (dfs_fuel (length N) (S (length N)) - m)) by lia.
      now rewrite Hf.
    + exfalso. destruct (finite_pred_cycle (edgeP N) (sdiff (dkeys N) D) NE) as (x & Hx & R).
      * intros n Hn. apply Rem in Hn. destruct Hn as [Hn Dn].
        destruct (filter (fun d => edge N d n && negb (smem d D)) (dkeys N)) as [|d t] eqn:F.
        -- exfalso. apply Dn. apply HD; auto. intros d Hd.
           destruct (in_dec Nat.eq_dec d D) as [|Nd]; auto. exfalso.
           assert (Fa : In d []); [|destruct Fa]. rewrite <- F. apply filter_In. split; [eapply edge_key; eauto|].
           unfold edgeP in Hd. rewrite Hd. apply smem_false in Nd. now rewrite Nd.
        -- assert (I : In d (d :: t)) by (cbn; auto). rewrite <- F in I. apply filter_In in I.
           destruct I as [I1 I2]. apply andb_true_iff in I2. rewrite negb_true_iff, smem_false in I2.
           exists d. split; [apply Rem; split; tauto|apply I2].
      * rewrite Forall_forall in Ha. apply (Acc_no_cycle (edgeP N) x); auto.
        apply Ha. apply RemO, Rem, Hx.
Qed.
Lemma is_cycle_not_acyclic e c : is_cycle e c -> ~ acyclic e.
Proof.
  destruct c as [|x t]; [easy|]. intros (_ & C & L) A. apply (A x).
  destruct t as [|y t'] using rev_ind.
  - constructor. exact L.
  - clear IHt'. rewrite app_comm_cons, last_last in L. eapply reaches_snoc; [|exact L].
    apply chain_reaches with (l := t'). exact C.
Qed.
