(** big's TopologicalSorter against Python's graphlib: a lockstep simulation. *)
From Verif Require Import PyBase PyBaseProof PyDict PyDictProof GraphModel GraphSpec
  GraphProof1 GraphProof2 GraphProof3 GraphProof4 GraphProof5 GraphProof6 GraphProof7 GraphProof8 GraphProof9 GraphlibSpec.
From Coq Require Import Lia.

(** sums over the nodes *)
Fixpoint wsum (K : list nat) (f : nat -> nat) : nat := match K with [] => 0 | x :: t => f x + wsum t f end.
Lemma wsum_ext K f g : (forall x, In x K -> f x = g x) -> wsum K f = wsum K g.
Proof. induction K as [|a t IH]; cbn; intros H; auto. Qed.
Lemma wsum_zero K f : wsum K f = 0 <-> forall x, In x K -> f x = 0.
Proof.
  induction K as [|a t IH]; cbn; [tauto|]. split.
  - intros H x [<-|I]; [lia|]. apply IH; auto. lia.
  - intros H. rewrite (H a), (proj2 IH); auto.
Qed.
Lemma wsum_app K K' f : wsum (K ++ K') f = wsum K f + wsum K' f.
Proof. induction K; cbn; auto. rewrite IHK. lia. Qed.
Lemma wsum_point K f g x : NoDup K -> In x K -> (forall y, In y K -> y <> x -> g y = f y) ->
  wsum K g + f x = wsum K f + g x.
Proof.
  induction K as [|a t IH]; cbn; intros ND I H; [tauto|]. inversion ND; subst.
  destruct I as [<-|I].
  - rewrite (wsum_ext t g f); [lia|]. intros y Iy. apply H; auto. congruence.
  - rewrite (H a); auto; [|intros ->; tauto]. specialize (IH H3 I). rewrite <- Nat.add_assoc, IH; auto; lia.
Qed.
Notation occ := (count_occ Nat.eq_dec).
Lemma occ_in l n : In n l <-> occ l n <> 0.
Proof. rewrite (count_occ_In Nat.eq_dec). lia. Qed.
Lemma occ_nodup l n : NoDup l -> occ l n = if smem n l then 1 else 0.
Proof.
  intros ND. destruct (smem_in n l) as [I|I].
  - apply NoDup_count_occ'; auto.
  - now apply count_occ_not_In.
Qed.

Lemma npred_dset I k p s d : npred (dset I k (p, s)) d = if d =? k then p else npred I d.
Proof. exact (pc_of_dset I k p s d). Qed.
Lemma succs_dset I k p s d : succs (dset I k (p, s)) d = if d =? k then s else succs I d.
Proof. exact (succs_of_dset I k p s d). Qed.

(** the successors of a finished node are released *)
Lemma release_fold ss : forall J r, (forall s, In s ss -> In s (dkeys J)) ->
  (forall m, In m ss -> (Z.of_nat (occ ss m) <= npred J m)%Z) ->
  exists J' X, fold_left lib_release ss (J, r) = (J', r ++ X) /\
    dkeys J' = dkeys J /\ (forall d, succs J' d = succs J d) /\
    (forall m, npred J' m = (npred J m - Z.of_nat (occ ss m))%Z) /\
    NoDup X /\ (forall m, In m X <-> In m ss /\ npred J m = Z.of_nat (occ ss m)) /\
    (NoDup ss -> X = filter (fun m => (npred J m =? 1)%Z) ss).
Proof.
  induction ss as [|a t IH]; intros J r HK HB.
  - exists J, []. rewrite app_nil_r. cbn. repeat split; auto; try tauto; try lia. constructor.
  - cbn [fold_left lib_release].
    set (J1 := dset J a ((npred J a - 1)%Z, succs J a)).
    assert (Ba := HB a (or_introl eq_refl)). cbn [count_occ] in Ba. destruct (Nat.eq_dec a a) as [_|F]; [|tauto].
    assert (N1 : forall m, npred J1 m = if m =? a then (npred J a - 1)%Z else npred J m).
    { intros m. unfold J1. now rewrite npred_dset. }
    assert (S1 : forall m, succs J1 m = succs J m).
    { intros m. unfold J1. rewrite succs_dset. destruct (m =? a) eqn:Q; auto. apply Nat.eqb_eq in Q. now subst. }
    assert (K1 : dkeys J1 = dkeys J) by (apply dkeys_dset_in, HK; cbn; auto).
    destruct (IH J1 (if (npred J a - 1 =? 0)%Z then r ++ [a] else r)) as (J' & X & E & K & Sc & P & ND & M & F).
    { intros s Is. rewrite K1. apply HK. cbn. auto. }
    { intros m Im. rewrite N1. specialize (HB m (or_intror Im)). cbn [count_occ] in HB.
      destruct (m =? a) eqn:Q.
      - apply Nat.eqb_eq in Q. subst m. lia.
      - apply Nat.eqb_neq in Q. destruct (Nat.eq_dec a m); [congruence|lia]. }
    exists J', (if (npred J a - 1 =? 0)%Z then a :: X else X).
    split; [|split; [congruence|split; [intros; rewrite Sc; auto|split; [|split; [|split]]]]].
    + rewrite E. f_equal. destruct (npred J a - 1 =? 0)%Z; auto. now rewrite <- app_assoc.
    + intros m. rewrite P, N1. cbn [count_occ]. destruct (m =? a) eqn:Q.
      * apply Nat.eqb_eq in Q. subst m. destruct (Nat.eq_dec a a); [lia|tauto].
      * apply Nat.eqb_neq in Q. destruct (Nat.eq_dec a m); [congruence|lia].
    + destruct (npred J a - 1 =? 0)%Z eqn:Z; auto. apply Z.eqb_eq in Z. constructor; auto.
      rewrite M. intros [I _]. apply (count_occ_In Nat.eq_dec) in I. lia.
    + intros m. transitivity ((m = a /\ npred J a = 1%Z) \/ In m X).
      { destruct (npred J a - 1 =? 0)%Z eqn:Z; cbn; [apply Z.eqb_eq in Z|apply Z.eqb_neq in Z]; intuition (try lia). }
      rewrite M, N1. cbn [count_occ In]. destruct (m =? a) eqn:Q.
      * apply Nat.eqb_eq in Q. subst m. destruct (Nat.eq_dec a a) as [_|?]; [|tauto].
        destruct (in_dec Nat.eq_dec a t) as [I|I].
        -- assert (occ t a > 0) by now apply (count_occ_In Nat.eq_dec). intuition lia.
        -- assert (occ t a = 0) by now apply count_occ_not_In. intuition lia.
      * apply Nat.eqb_neq in Q. destruct (Nat.eq_dec a m); [congruence|]. intuition congruence.
    + intros NDt. inversion NDt; subst. cbn [filter]. rewrite (F H2).
      assert (Q : filter (fun m => (npred J1 m =? 1)%Z) t = filter (fun m => (npred J m =? 1)%Z) t).
      { apply filter_ext_in. intros m Im. rewrite N1. destruct (m =? a) eqn:Q; auto. apply Nat.eqb_eq in Q. congruence. }
      rewrite Q. destruct (npred J a - 1 =? 0)%Z eqn:Z1, (npred J a =? 1)%Z eqn:Z2; auto; lia.
Qed.

(** graphlib's book-keeping of the dependencies, against the set big keeps *)
Definition unfinished (K : list nat) (I : infos) (M : nat -> bool) (n : nat) : nat :=
  wsum K (fun d => if M d then 0 else occ (succs I d) n).
Record LI (X : Prop) (N : nodes_t) (I : infos) : Prop := mkLI {
  li_keys : dkeys I = dkeys N;
  li_edge : forall d n, In n (succs I d) <-> edge N d n = true;
  li_pred : forall n, In n (dkeys N) -> npred I n = Z.of_nat (unfinished (dkeys N) I (fun _ => false) n);
  li_exact : X -> forall d, succs I d = succs_of N d
}.
Record LA (X : Prop) (node : nat) (rem : list nat) (a : add_st) (I : infos) : Prop := mkLA {
  la_keys : dkeys I = dkeys (a_nodes a);
  la_nd : NoDup (dkeys I);
  la_node : In node (dkeys I);
  la_edge : forall d n, In n (succs I d) <-> In n (succs_of (a_nodes a) d);
  la_closed : forall d n, In n (succs I d) -> In n (dkeys I);
  la_pred : forall n, In n (dkeys I) ->
    npred I n = Z.of_nat (unfinished (dkeys I) I (fun _ => false) n + if n =? node then length rem else 0);
  la_exact : X -> (forall d, succs I d = succs_of (a_nodes a) d) /\ NoDup rem /\
                  forall d, In d rem -> ~ In node (succs_of (a_nodes a) d)
}.
Lemma succs_nokey (I : infos) d : ~ In d (dkeys I) -> succs I d = [].
Proof. exact (succs_of_notin I d). Qed.
Lemma npred_nokey (I : infos) d : ~ In d (dkeys I) -> npred I d = 0%Z.
Proof. exact (pc_of_notin I d). Qed.

Lemma LA_step X node d rem a I : LA X node (d :: rem) a I ->
  LA X node rem (add_dep node a d)
     (let I1 := get_nodeinfo I d in dset I1 d (npred I1 d, succs I1 d ++ [node])).
Proof.
  intros [Hk Hn Hnode He Hc Hp Hx]. cbv zeta.
  change (get_nodeinfo I d) with (nodes_ensure I d).
  set (I1 := nodes_ensure I d).
  assert (S1 : forall x, succs I1 x = succs I x) by (intros; exact (succs_ensure I d x)).
  assert (P1 : forall x, npred I1 x = npred I x) by (intros; exact (pc_ensure I d x)).
  assert (K1 : dkeys I1 = dkeys (nodes_ensure (a_nodes a) d)).
  { unfold I1. rewrite !keys_ensure, Hk. unfold dmem. f_equal.
    destruct (dget I d) eqn:E1, (dget (a_nodes a) d) eqn:E2; auto.
    - assert (In d (dkeys I)) as Q by (apply dget_some; eauto). rewrite Hk in Q. apply dget_some in Q. rewrite E2 in Q. destruct Q; discriminate.
    - assert (In d (dkeys (a_nodes a))) as Q by (apply dget_some; eauto). rewrite <- Hk in Q. apply dget_some in Q. rewrite E1 in Q. destruct Q; discriminate. }
  assert (Nd1 : NoDup (dkeys I1)) by now apply nodup_ensure.
  assert (In1 : In d (dkeys I1)) by (apply in_keys_ensure; auto).
  set (I2 := dset I1 d (npred I1 d, succs I1 d ++ [node])).
  assert (K2 : dkeys I2 = dkeys I1) by now apply dkeys_dset_in.
  assert (S2 : forall x, succs I2 x = if x =? d then succs I d ++ [node] else succs I x).
  { intros x. unfold I2. rewrite succs_dset, !S1. auto. }
  assert (P2 : forall x, npred I2 x = npred I x).
  { intros x. unfold I2. rewrite npred_dset, !P1. destruct (x =? d) eqn:Q; auto. apply Nat.eqb_eq in Q. now subst. }
  set (N1 := nodes_ensure (a_nodes a) d).
  assert (SN : forall x, succs_of N1 x = succs_of (a_nodes a) x) by (intros; apply succs_ensure).
  assert (KA : dkeys (a_nodes (add_dep node a d)) = dkeys N1).
  { unfold add_dep. fold N1. destruct (smem node (succs_of N1 d)); auto. cbn [a_nodes]. apply dkeys_dset_in. unfold N1. rewrite <- K1. auto. }
  assert (SA : forall x, succs_of (a_nodes (add_dep node a d)) x =
     if smem node (succs_of (a_nodes a) d) then succs_of (a_nodes a) x
     else if x =? d then succs_of (a_nodes a) d ++ [node] else succs_of (a_nodes a) x).
  { intros x. unfold add_dep. fold N1. rewrite SN. destruct (smem node (succs_of (a_nodes a) d)); cbn [a_nodes]; auto.
    rewrite succs_of_dset, !SN. auto. }
  constructor.
  - rewrite K2, KA. exact K1.
  - now rewrite K2.
  - rewrite K2. apply in_keys_ensure. auto.
  - intros x n. rewrite S2, SA. destruct (smem_in node (succs_of (a_nodes a) d)) as [J|J].
    + destruct (x =? d) eqn:Q; [|apply He]. apply Nat.eqb_eq in Q. subst x. rewrite in_app_iff, He. cbn. intuition (subst; auto).
    + destruct (x =? d) eqn:Q; [|apply He]. rewrite !in_app_iff, He. tauto.
  - intros x n. rewrite S2, K2. intros J. apply in_keys_ensure. destruct (x =? d); [|left; eauto].
    apply in_app_iff in J. destruct J as [J|[<-|[]]]; [left; eauto|auto].
  - intros n. rewrite K2, P2. intros J.
    assert (U : unfinished (dkeys I1) I2 (fun _ => false) n = unfinished (dkeys I) I (fun _ => false) n + if n =? node then 1 else 0).
    { unfold unfinished.
      assert (W : wsum (dkeys I1) (fun d0 => occ (succs I d0) n) = wsum (dkeys I) (fun d0 => occ (succs I d0) n)).
      { unfold I1. rewrite keys_ensure, wsum_app. destruct (dmem d I) eqn:D; cbn; [lia|].
        apply dmem_false in D. rewrite (succs_nokey I d); auto. }
      pose proof (wsum_point (dkeys I1) (fun d0 => occ (succs I d0) n) (fun d0 => occ (succs I2 d0) n) d Nd1 In1) as Q.
      cbv beta in Q. rewrite W in Q. rewrite S2 in Q. rewrite Nat.eqb_refl, count_occ_app in Q. cbn [count_occ] in Q.
      rewrite (Nat.eqb_sym n node). destruct (Nat.eq_dec node n) as [->|Ne].
      - rewrite Nat.eqb_refl. cut (wsum (dkeys I1) (fun d0 => occ (succs I2 d0) n) + occ (succs I d) n = wsum (dkeys I) (fun d0 => occ (succs I d0) n) + (occ (succs I d) n + 1)); [lia|].
        apply Q. intros y _ Ny. rewrite S2. apply Nat.eqb_neq in Ny. now rewrite Ny.
      - apply Nat.eqb_neq in Ne. rewrite Ne. cut (wsum (dkeys I1) (fun d0 => occ (succs I2 d0) n) + occ (succs I d) n = wsum (dkeys I) (fun d0 => occ (succs I d0) n) + (occ (succs I d) n + 0)); [lia|].
        apply Q. intros y _ Ny. rewrite S2. apply Nat.eqb_neq in Ny. now rewrite Ny. }
    rewrite U. apply in_keys_ensure in J. destruct (in_dec Nat.eq_dec n (dkeys I)) as [Jn|Jn].
    + rewrite Hp; auto. cbn [length]. destruct (n =? node); lia.
    + destruct J as [J| ->]; [tauto|]. rewrite npred_nokey; auto.
      replace (d =? node) with false. 2:{ symmetry. apply Nat.eqb_neq. intros ->. tauto. }
      replace (unfinished _ _ _ _) with 0; auto. symmetry. apply wsum_zero. intros y Iy.
      apply count_occ_not_In. intros F. apply Hc in F. tauto.
  - intros HX. destruct (Hx HX) as (X1 & X2 & X3). inversion X2; subst.
    assert (Nn := X3 d (or_introl eq_refl)). rewrite (proj2 (smem_false _ _) Nn) in SA.
    split; [|split]; auto.
    + intros x. rewrite S2, SA, !X1. auto.
    + intros x Ix. rewrite SA. destruct (x =? d) eqn:Q; [apply Nat.eqb_eq in Q; congruence|]. apply X3. cbn. auto.
Qed.
Lemma LA_fold X node rem : forall a I, LA X node rem a I ->
  LA X node [] (fold_left (add_dep node) rem a)
     (fold_left (fun I p => let I := get_nodeinfo I p in dset I p (npred I p, succs I p ++ [node])) rem I).
Proof. induction rem as [|d t IH]; intros a I H; cbn [fold_left]; auto. apply IH. now apply LA_step. Qed.

Lemma LI_nil X : LI X [] [].
Proof. constructor; cbn; try tauto; auto. intros. split; [tauto|discriminate]. Qed.
Lemma LI_add X N I node deps dirty : NI N -> LI X N I ->
  (X -> NoDup deps /\ forall d, In d deps -> edge N d node = false) ->
  LI X (a_nodes (add_nodes_part N dirty node deps)) (lib_add I node deps).
Proof.
  intros HN [Hk He Hp Hx] HX. unfold add_nodes_part, lib_add. cbv zeta.
  set (N0 := nodes_ensure N node). set (a0 := mkAdd N0 dirty (pc_of N0 node) (if dmem node N then [] else [node]) []).
  change (get_nodeinfo I node) with (nodes_ensure I node). set (I0 := nodes_ensure I node).
  set (I1 := dset I0 node ((npred I0 node + Z.of_nat (length deps))%Z, succs I0 node)).
  assert (S0 : forall x, succs I0 x = succs I x) by (intros; exact (succs_ensure I node x)).
  assert (P0 : forall x, npred I0 x = npred I x) by (intros; exact (pc_ensure I node x)).
  assert (In0 : In node (dkeys I0)) by (apply in_keys_ensure; auto).
  assert (K1 : dkeys I1 = dkeys I0) by now apply dkeys_dset_in.
  assert (K0 : dkeys I0 = dkeys N0).
  { unfold I0, N0. rewrite !keys_ensure, Hk. f_equal. unfold dmem.
    destruct (dget I node) eqn:E1, (dget N node) eqn:E2; auto.
    - assert (In node (dkeys I)) as Q by (apply dget_some; eauto). rewrite Hk in Q. apply dget_some in Q. rewrite E2 in Q. destruct Q; discriminate.
    - assert (In node (dkeys N)) as Q by (apply dget_some; eauto). rewrite <- Hk in Q. apply dget_some in Q. rewrite E1 in Q. destruct Q; discriminate. }
  assert (S1 : forall x, succs I1 x = succs I x).
  { intros x. unfold I1. rewrite succs_dset, !S0. destruct (x =? node) eqn:Q; auto. apply Nat.eqb_eq in Q. now subst. }
  assert (A0 : LA X node deps a0 I1).
  { constructor; cbn [a_nodes a0].
    - congruence.
    - rewrite K1. apply nodup_ensure. rewrite Hk. apply HN.
    - now rewrite K1.
    - intros d n. rewrite S1. unfold N0. rewrite succs_ensure, He. apply edge_succ.
    - intros d n. rewrite S1, K1, He. intros E. apply in_keys_ensure. left. rewrite Hk. eapply ni_closed; eauto.
    - intros n. rewrite K1. intros J.
      assert (P1 : npred I1 n = if n =? node then (npred I node + Z.of_nat (length deps))%Z else npred I n) by (unfold I1; now rewrite npred_dset, !P0).
      rewrite P1.
      assert (U : unfinished (dkeys I0) I1 (fun _ => false) n = unfinished (dkeys I) I (fun _ => false) n).
      { unfold unfinished. rewrite (wsum_ext _ _ (fun d => occ (succs I d) n)); [|intros; now rewrite S1].
        unfold I0. rewrite keys_ensure, wsum_app. destruct (dmem node I) eqn:D; cbn; [lia|].
        apply dmem_false in D. rewrite (succs_nokey I node); auto. }
      rewrite U.
      assert (Pn : npred I n = Z.of_nat (unfinished (dkeys I) I (fun _ => false) n)).
      { destruct (in_dec Nat.eq_dec n (dkeys I)) as [Jn|Jn].
        - rewrite Hk. apply Hp. congruence.
        - rewrite npred_nokey; auto. replace (unfinished _ _ _ _) with 0; auto. symmetry. apply wsum_zero.
          intros y _. apply count_occ_not_In. intros F. apply He in F. apply Jn. rewrite Hk. eapply ni_closed; eauto. }
      destruct (n =? node) eqn:Q; [apply Nat.eqb_eq in Q; subst n|]; rewrite Pn; lia.
    - intros J. destruct (HX J) as [X1 X2]. split; [|split]; auto.
      + intros d. rewrite S1. unfold N0. now rewrite succs_ensure, Hx.
      + intros d Id. unfold N0. rewrite succs_ensure. intros F. apply edge_succ in F. rewrite X2 in F; [discriminate|auto]. }
  apply LA_fold in A0. destruct A0 as [Bk Bn Bnode Be Bc Bp Bx].
  fold a0 in Bk, Be, Bx |- *. set (a1 := fold_left (add_dep node) deps a0) in *.
  match type of Bk with dkeys ?x = _ => set (I2 := x) in * end.
  match goal with |- LI X ?n _ => change (LI X n I2) end. cbn [a_nodes].
  assert (Ka : dkeys (dset (a_nodes a1) node (a_pc a1, succs_of (a_nodes a1) node)) = dkeys (a_nodes a1)).
  { apply dkeys_dset_in. congruence. }
  assert (Sa : forall d, succs_of (dset (a_nodes a1) node (a_pc a1, succs_of (a_nodes a1) node)) d = succs_of (a_nodes a1) d).
  { intros d. rewrite succs_of_dset. destruct (d =? node) eqn:Q; auto. apply Nat.eqb_eq in Q. now subst. }
  constructor.
  - congruence.
  - intros d n. rewrite edge_succ, Sa. apply Be.
  - intros n. rewrite Ka, <- Bk. intros J. rewrite Bp; auto. cbn [length]. destruct (n =? node); f_equal; lia.
  - intros J d. rewrite Sa. now apply Bx.
Qed.

(** big's view [V] (with the nodes of [Mk] marked but not yet recorded as done, in the
    middle of a call of done()) and graphlib's object [s] *)
Definition fin (V : view) (Mk : list nat) (d : nat) : bool := smem d (v_done V) || smem d Mk.
Record Sim (X : Prop) (N : nodes_t) (V : view) (Mk : list nat) (s : lib) : Prop := mkSim {
  si_keys : dkeys (l_info s) = dkeys N;
  si_edge : forall d n, In n (succs (l_info s) d) <-> edge N d n = true;
  si_exact : X -> forall d, succs (l_info s) d = succs_of N d;
  si_vi : VIg (dkeys N) (edge N) none1 (fin V Mk) V;
  si_conf : v_conf V = [];
  si_mk : forall n, In n Mk -> In n (v_yielded V);
  si_mknd : NoDup Mk;
  si_closed : forall d n, edge N d n = true -> In n (v_yielded V) \/ In n (v_done V) -> fin V Mk d = true;
  si_pred : forall n, In n (dkeys N) -> npred (l_info s) n =
    if fin V Mk n then (-2)%Z else if smem n (v_yielded V) then (-1)%Z
    else Z.of_nat (unfinished (dkeys N) (l_info s) (fin V Mk) n);
  si_ready : Permutation (l_ready s) (v_ready V);
  si_rexact : X -> l_ready s = v_ready V;
  si_finished : l_finished s = length (v_done V) + length Mk;
  si_passed : l_passed s = length (v_done V) + length (v_yielded V)
}.

Lemma unfinished_zero K I M n : unfinished K I M n = 0 <-> forall d, In d K -> In n (succs I d) -> M d = true.
Proof.
  unfold unfinished. rewrite wsum_zero. split; intros H d Id.
  - intros Is. specialize (H d Id). destruct (M d); auto. apply occ_in in Is. tauto.
  - destruct (M d) eqn:E; auto. apply count_occ_not_In. intros Is. rewrite (H d Id Is) in E. discriminate.
Qed.
Lemma unfinished_ext K I I' M M' n : (forall d, In d K -> M d = M' d) -> (forall d, succs I d = succs I' d) ->
  unfinished K I M n = unfinished K I' M' n.
Proof. intros H1 H2. apply wsum_ext. intros d Id. now rewrite H1, H2. Qed.
Lemma unfinished_exact K N I M n : (forall d, succs I d = succs_of N d) -> (forall d, NoDup (succs_of N d)) ->
  unfinished K I M n = cnt K (fun d => edge N d n && negb (M d)).
Proof.
  intros HS ND. unfold unfinished. induction K as [|a t IH]; cbn [wsum]; auto. rewrite cnt_cons, IH. f_equal.
  rewrite HS. unfold edge. rewrite occ_nodup; auto. destruct (M a), (smem n (succs_of N a)); auto.
Qed.
Lemma late_none k n : (k <> 0 <-> none1 n) -> k = 0.
Proof. intros Q. destruct k; auto. exfalso. apply (proj1 Q). discriminate. Qed.
(** an undone node that was not handed out: its count in big *)
Lemma Sim_vpred X N V Mk s n : Sim X N V Mk s -> In n (dkeys N) -> ~ In n (v_yielded V) -> ~ In n (v_done V) ->
  dget (v_pred V) n = Some (Z.of_nat (cnt (dkeys N) (fun d => edge N d n && negb (fin V Mk d)))).
Proof.
  intros H H1 H2 H3. destruct (vi_cnt _ _ _ _ _ (si_vi _ _ _ _ _ H) n H1 H2 H3) as (k & E & Q).
  assert (k = 0) by exact (late_none _ _ Q). subst k. rewrite E. now rewrite Nat.add_0_r.
Qed.
Lemma Sim_ready X N V Mk s n : NI N -> Sim X N V Mk s ->
  In n (v_ready V) <-> In n (dkeys N) /\ ~ In n (v_yielded V) /\ ~ In n (v_done V) /\
                       forall d, edge N d n = true -> fin V Mk d = true.
Proof.
  intros HN H. rewrite (vi_ready _ _ _ _ _ (si_vi _ _ _ _ _ H)). split.
  - intros (H1 & H2 & H3 & H4). do 3 (split; auto). rewrite (Sim_vpred _ _ _ _ _ _ H) in H4; auto.
    injection H4 as H4. intros d E. assert (Z : cnt (dkeys N) (fun d => edge N d n && negb (fin V Mk d)) = 0) by lia.
    rewrite cnt_zero in Z. specialize (Z d (edge_key _ _ _ E)). cbv beta in Z. rewrite E in Z. now destruct (fin V Mk d).
  - intros (H1 & H2 & H3 & H4). do 3 (split; auto). rewrite (Sim_vpred _ _ _ _ _ _ H); auto.
    replace (cnt _ _) with 0; auto. symmetry. apply cnt_zero. intros d _. destruct (edge N d n) eqn:E; auto. now rewrite H4.
Qed.
Lemma nodup_perm (a b : list nat) : NoDup a -> NoDup b -> (forall x, In x a <-> In x b) -> Permutation a b.
Proof. apply NoDup_Permutation. Qed.

(** done(): one node *)
Lemma done_one_sim X N V Mk s n : NI N -> Sim X N V Mk s -> ~ In n Mk ->
  (exists s', (if negb (dmem n N) then (V, Err ValueError)
    else if negb (smem n (v_yielded V)) then (V, Err ValueError)
    else v_mark_done V (succs_of N n)) = (V, Err ValueError) /\ lib_done_one s n = (s', Err ValueError)) \/
  (exists V' s', (if negb (dmem n N) then (V, Err ValueError)
    else if negb (smem n (v_yielded V)) then (V, Err ValueError)
    else v_mark_done V (succs_of N n)) = (V', Ok tt) /\ lib_done_one s n = (s', Ok tt) /\
    Sim X N V' (n :: Mk) s' /\ In n (v_yielded V) /\ v_yielded V' = v_yielded V /\ v_done V' = v_done V).
Proof.
  intros HN H Hn. pose proof H as H'. destruct H' as [Hk He Hx Hv Hc Hm Hmn Hcl Hp Hr Hrx Hf Hps].
  unfold lib_done_one.
  destruct (dmem n N) eqn:D.
  2:{ left. cbn [negb]. apply dmem_false in D. rewrite <- Hk in D. exists s. split; auto.
      destruct (dget (l_info s) n) eqn:E; auto. exfalso. apply D, dget_some. eauto. }
  apply dmem_true in D. cbn [negb].
  assert (D' := D). rewrite <- Hk in D'. apply dget_some in D'. destruct D' as [[k ss] E]. rewrite E.
  assert (Ek : npred (l_info s) n = k) by (unfold npred; now rewrite E).
  assert (Es : succs (l_info s) n = ss) by (unfold succs; now rewrite E).
  pose proof (Hp n D) as Pn. rewrite Ek in Pn.
  destruct (smem_in n (v_yielded V)) as [Y|Y].
  2:{ left. cbn [negb]. exists s. split; auto.
      destruct (fin V Mk n); [rewrite Pn; auto|]. rewrite Pn. destruct (Z.of_nat _ =? -1)%Z eqn:Q; [lia|].
      replace (0 <=? Z.of_nat (unfinished (dkeys N) (l_info s) (fin V Mk) n))%Z with true by lia. auto. }
  right. cbn [negb].
  assert (Fn : fin V Mk n = false).
  { unfold fin. rewrite (proj2 (smem_false n (v_done V))), (proj2 (smem_false n Mk)); auto. eapply vi_disj; eauto. }
  rewrite Fn in Pn. rewrite Pn. cbn [Z.eqb Pos.eqb].
  (* big *)
  destruct (VIg_mark (dkeys N) (edge N) none1 (fin V Mk) V n (succs_of N n) Hv D Fn (ni_succs N HN n)) as (V' & EV & EG & EY & ED & EC & ER & VI').
  { intros t. symmetry. apply edge_succ. } { intros t. apply HN. }
  destruct (mark_done_raw (succs_of N n) V (ni_succs N HN n)) as (V'' & EV' & _ & _ & _ & _ & _ & _ & _ & Rd).
  { intros t It _. apply (vi_pred _ _ _ _ _ Hv). apply edge_succ in It. eapply ni_closed; eauto. }
  rewrite EV in EV'. injection EV' as <-.
  assert (FS : forall d, fin V' (n :: Mk) d = fin V Mk d || (d =? n)).
  { intros d. unfold fin. rewrite ED. change (smem d (n :: Mk)) with ((d =? n) || smem d Mk). destruct (smem d (v_done V)), (d =? n), (smem d Mk); auto. }
  assert (As : forall t, In t ss -> edge N n t = true /\ In t (dkeys N) /\ ~ In t (v_yielded V) /\ ~ In t (v_done V) /\ fin V Mk t = false).
  { intros t It. rewrite <- Es in It. apply He in It. split; auto. split; [eapply ni_closed; eauto|].
    assert (A : ~ In t (v_yielded V)). { intros F. rewrite (Hcl n t) in Fn; auto; discriminate. }
    assert (B : ~ In t (v_done V)). { intros F. rewrite (Hcl n t) in Fn; auto; discriminate. }
    split; auto. split; auto. unfold fin. rewrite (proj2 (smem_false t (v_done V)) B). apply smem_false.
    intros F. apply A, Hm, F. }
  assert (Ns : ~ In n ss). { intros F. apply As in F. tauto. }
  (* graphlib *)
  set (J0 := dset (l_info s) n ((-2)%Z, ss)).
  assert (J0k : dkeys J0 = dkeys N). { unfold J0. rewrite dkeys_dset_in; auto. apply dget_some. eauto. }
  assert (J0s : forall d, succs J0 d = succs (l_info s) d).
  { intros d. unfold J0. rewrite succs_dset. destruct (d =? n) eqn:Q; auto. apply Nat.eqb_eq in Q. now subst. }
  assert (J0p : forall d, npred J0 d = if d =? n then (-2)%Z else npred (l_info s) d).
  { intros d. unfold J0. now rewrite npred_dset. }
  assert (Uf : forall t, unfinished (dkeys N) (l_info s) (fin V Mk) t =
     unfinished (dkeys N) (l_info s) (fun d => fin V Mk d || (d =? n)) t + occ ss t).
  { intros t. unfold unfinished.
    pose proof (wsum_point (dkeys N) (fun d => if fin V Mk d then 0 else occ (succs (l_info s) d) t)
       (fun d => if fin V Mk d || (d =? n) then 0 else occ (succs (l_info s) d) t) n (ni_keys N HN) D) as Q.
    cbv beta in Q. rewrite Fn, Nat.eqb_refl, Es in Q. cbn [orb] in Q.
    assert (Q1 := Q (fun y _ Ny => ltac:(rewrite (proj2 (Nat.eqb_neq y n) Ny), orb_false_r; reflexivity))). lia. }
  destruct (release_fold ss J0 (l_ready s)) as (J' & Xs & ES & K' & Sc & P' & ND & M' & F').
  { intros t It. rewrite J0k. apply As in It. tauto. }
  { intros t It. destruct (As t It) as (A1 & A2 & A3 & A4 & A5). rewrite J0p.
    destruct (t =? n) eqn:Q; [apply Nat.eqb_eq in Q; congruence|]. rewrite Hp; auto.
    rewrite A5, (proj2 (smem_false _ _) A3), Uf. lia. }
  rewrite ES. exists V'. eexists. split; [exact EV|]. split; [reflexivity|]. split; [|auto].
  assert (Hp' : forall t, In t (dkeys N) -> npred J' t =
    if fin V' (n :: Mk) t then (-2)%Z else if smem t (v_yielded V') then (-1)%Z
    else Z.of_nat (unfinished (dkeys N) J' (fin V' (n :: Mk)) t)).
  { intros t It. rewrite P', J0p, FS, EY.
    assert (U' : unfinished (dkeys N) J' (fin V' (n :: Mk)) t = unfinished (dkeys N) (l_info s) (fun d => fin V Mk d || (d =? n)) t).
    { apply unfinished_ext; auto. intros d. now rewrite Sc, J0s. }
    rewrite U'. destruct (t =? n) eqn:Q.
    - apply Nat.eqb_eq in Q. subst t. rewrite orb_true_r, (proj1 (count_occ_not_In Nat.eq_dec ss n) Ns). auto.
    - rewrite orb_false_r, (Hp t It). destruct (in_dec Nat.eq_dec t ss) as [I|I].
      + destruct (As t I) as (A1 & A2 & A3 & A4 & A5). rewrite A5, (proj2 (smem_false _ _) A3), Uf. lia.
      + rewrite Uf, (proj1 (count_occ_not_In Nat.eq_dec ss t) I).
        destruct (fin V Mk t); [auto|]. destruct (smem t (v_yielded V)); [auto|]. f_equal. lia. }
  assert (Vi' : VIg (dkeys N) (edge N) none1 (fin V' (n :: Mk)) V').
  { eapply VIg_ext; [| |exact VI']; [|tauto]. intros d t _ _. now rewrite FS. }
  assert (Sim' : forall r, (Permutation r (v_ready V')) -> (X -> r = v_ready V') ->
     Sim X N V' (n :: Mk) (mkLib J' r (l_passed s) (S (l_finished s)))).
  { intros r R1 R2. constructor; cbn [l_info l_ready l_passed l_finished]; auto.
    - congruence.
    - intros d t. now rewrite Sc, J0s.
    - intros HX d. rewrite Sc, J0s. auto.
    - congruence.
    - rewrite EY. intros t [<-|I]; auto.
    - now constructor.
    - intros d t Ed. rewrite EY, ED, FS. intros Q. rewrite (Hcl d t Ed Q). auto.
    - rewrite ED. cbn [length]. lia.
    - now rewrite ED, EY. }
  apply Sim'.
  - apply NoDup_Permutation.
    + apply nodup_app_intro; auto. { eapply Permutation_NoDup; [apply Permutation_sym, Hr|]. apply Hv. }
      intros t I1 I2. apply M' in I2. destruct I2 as [I2 I3]. destruct (As t I2) as (A1 & A2 & A3 & A4 & A5).
      apply (Permutation_in _ Hr) in I1. apply (Sim_ready X N V Mk s) in I1; auto. destruct I1 as (_ & _ & _ & I1).
      rewrite (I1 n) in Fn; auto. discriminate.
    + apply Vi'.
    + intros t. rewrite in_app_iff, (vi_ready _ _ _ _ _ Vi'), EY, ED, M'.
      split.
      * intros [I|[I1 I2]].
        -- apply (Permutation_in _ Hr) in I. apply (Sim_ready X N V Mk s) in I; auto. destruct I as (I1 & I2 & I3 & I4).
           do 3 (split; auto). destruct (vi_cnt _ _ _ _ _ Vi' t I1) as (kk & Q1 & Q2); rewrite ?EY, ?ED; auto.
           assert (kk = 0) by exact (late_none _ _ Q2). subst kk. rewrite Q1.
           replace (cnt _ _) with 0; auto. symmetry. apply cnt_zero. intros d _. destruct (edge N d t) eqn:Ed; auto.
           rewrite FS, (I4 d Ed). auto.
        -- destruct (As t I1) as (A1 & A2 & A3 & A4 & A5). do 3 (split; auto).
           destruct (vi_cnt _ _ _ _ _ Vi' t A2) as (kk & Q1 & Q2); rewrite ?EY, ?ED; auto.
           assert (kk = 0) by exact (late_none _ _ Q2). subst kk. rewrite Q1.
           rewrite J0p in I2. destruct (t =? n) eqn:Q; [apply Nat.eqb_eq in Q; congruence|].
           rewrite (Hp t A2), A5, (proj2 (smem_false _ _) A3), Uf in I2.
           assert (U0 : unfinished (dkeys N) (l_info s) (fun d => fin V Mk d || (d =? n)) t = 0) by lia.
           rewrite unfinished_zero in U0.
           replace (cnt _ _) with 0; auto. symmetry. apply cnt_zero. intros d Id. destruct (edge N d t) eqn:Ed; auto.
           rewrite FS, (U0 d); auto. now apply He.
      * intros (I1 & I2 & I3 & I4). destruct (vi_cnt _ _ _ _ _ Vi' t I1) as (kk & Q1 & Q2); rewrite ?EY, ?ED; auto.
        assert (kk = 0) by exact (late_none _ _ Q2). subst kk. rewrite Q1 in I4. injection I4 as I4.
        assert (C0 : cnt (dkeys N) (fun d => edge N d t && negb (fin V' (n :: Mk) d)) = 0) by lia. rewrite cnt_zero in C0.
        assert (AllD : forall d, edge N d t = true -> fin V Mk d || (d =? n) = true).
        { intros d Ed. specialize (C0 d (edge_key _ _ _ Ed)). cbv beta in C0. rewrite Ed, FS in C0. now destruct (fin V Mk d || (d =? n)). }
        destruct (in_dec Nat.eq_dec t ss) as [I|I].
        -- right. split; auto. destruct (As t I) as (A1 & A2 & A3 & A4 & A5).
           rewrite J0p. destruct (t =? n) eqn:Q; [apply Nat.eqb_eq in Q; congruence|].
           rewrite (Hp t A2), A5, (proj2 (smem_false _ _) A3), Uf.
           replace (unfinished _ _ _ _) with 0; auto. symmetry. apply unfinished_zero. intros d _ Is. apply AllD, He, Is.
        -- left. apply (Permutation_in _ (Permutation_sym Hr)). apply (Sim_ready X N V Mk s); auto. do 3 (split; auto).
           intros d Ed. pose proof (AllD d Ed) as Q. destruct (d =? n) eqn:Q'; [|now rewrite orb_false_r in Q].
           apply Nat.eqb_eq in Q'. subst d. exfalso. apply I. rewrite <- Es. now apply He.
  - intros HX. rewrite Rd, (Hrx HX). f_equal. assert (Ess : ss = succs_of N n) by (rewrite <- Es; auto).
    rewrite F' by (rewrite Ess; apply HN). rewrite Ess. apply filter_ext_in. intros t It. rewrite <- Ess in It.
    destruct (As t It) as (A1 & A2 & A3 & A4 & A5). rewrite J0p. destruct (t =? n) eqn:Q; [apply Nat.eqb_eq in Q; congruence|].
    rewrite (Hp t A2), A5, (proj2 (smem_false _ _) A3).
    rewrite (unfinished_exact (dkeys N) N _ _ _ (Hx HX) (ni_succs N HN)).
    rewrite (proj2 (active_true V t)); auto. rewrite (Sim_vpred _ _ _ _ _ _ H); auto.
Qed.

Lemma done_loop_sim X N ns : NI N -> forall V Mk s, Sim X N V Mk s -> NoDup ns -> (forall n, In n ns -> ~ In n Mk) ->
  (exists V' s', v_done_loop N V ns = (V', Err ValueError) /\ lib_done s ns = (s', Err ValueError)) \/
  (exists V' s', v_done_loop N V ns = (V', Ok tt) /\ lib_done s ns = (s', Ok tt) /\
     Sim X N V' (rev ns ++ Mk) s' /\ (forall n, In n ns -> In n (v_yielded V)) /\ v_yielded V' = v_yielded V /\ v_done V' = v_done V).
Proof.
  intros HN. unfold v_done_loop, lib_done. induction ns as [|n t IH]; intros V Mk s H ND HM; cbn [for_each].
  - right. exists V, s. cbn. split; [auto|]. split; [auto|]. split; [exact H|]. split; [tauto|auto].
  - inversion ND; subst. destruct (done_one_sim X N V Mk s n HN H) as [(s' & E1 & E2)|(V' & s' & E1 & E2 & S' & Yn & EY & ED)].
    { apply HM. cbn. auto. }
    + left. rewrite E1, E2. eauto.
    + rewrite E1, E2. destruct (IH V' (n :: Mk) s' S' H3) as [(V2 & s2 & F1 & F2)|(V2 & s2 & F1 & F2 & S2 & Y2 & EY2 & ED2)].
      { intros x Ix [<-|J]; [tauto|]. eapply HM; cbn; eauto. }
      * left. eauto.
      * right. exists V2, s2. do 2 (split; auto). cbn [rev]. rewrite <- app_assoc. split; [exact S2|].
        split; [|split; congruence]. intros x [<-|Ix]; auto. rewrite <- EY. auto.
Qed.
Lemma length_sunion_new s l : NoDup (s ++ l) -> length (sunion s l) = length s + length l.
Proof.
  unfold sunion. revert s. induction l as [|x t IH]; cbn; intros s ND; auto.
  assert (Nx : ~ In x s). { intros F. apply (NoDup_remove_2 s t x ND). apply in_or_app. auto. }
  replace (sadd x s) with (s ++ [x]) by (unfold sadd; now rewrite (proj2 (smem_false x s) Nx)). rewrite IH.
  - rewrite app_length. cbn. lia.
  - now rewrite <- app_assoc.
Qed.
Lemma length_sdiff s l : NoDup s -> NoDup l -> (forall x, In x l -> In x s) -> length (sdiff s l) + length l = length s.
Proof.
  intros N1 N2 H. rewrite <- app_length. apply Permutation_length. apply NoDup_Permutation; auto.
  - apply nodup_app_intro; auto using nodup_sdiff. intros x I. apply in_sdiff in I. tauto.
  - intros x. rewrite in_app_iff, in_sdiff. destruct (in_dec Nat.eq_dec x l); intuition.
Qed.
Lemma done_sim X N ns V s : NI N -> Sim X N V [] s -> NoDup ns ->
  (exists V' s', v_do_done N V ns = (V', Err ValueError) /\ lib_done s ns = (s', Err ValueError)) \/
  (exists V' s', v_do_done N V ns = (V', Ok tt) /\ lib_done s ns = (s', Ok tt) /\ Sim X N V' [] s').
Proof.
  intros HN H ND. unfold v_do_done.
  destruct (done_loop_sim X N ns HN V [] s H ND ltac:(cbn; tauto)) as [(V' & s' & E1 & E2)|(V' & s' & E1 & E2 & S' & Yn & EY & ED)];
    rewrite E1; [left; eauto|right].
  eexists. exists s'. split; [reflexivity|]. split; auto. rewrite app_nil_r in S'.
  destruct S' as [Hk He Hx Hv Hc Hm Hmn Hcl Hp Hr Hrx Hf Hps].
  set (V2 := set_yielded (set_done V' (sunion (v_done V') ns)) (sdiff (v_yielded V') ns)).
  assert (FF : forall d, fin V2 [] d = fin V' (rev ns) d).
  { intros d. unfold fin. cbn [V2 v_done set_yielded set_done]. change (smem d []) with false. rewrite orb_false_r.
    apply eq_true_iff_eq. rewrite orb_true_iff, !smem_true, in_sunion, <- in_rev. tauto. }
  assert (Q : forall n, (~ In n (v_yielded V2) /\ ~ In n (v_done V2)) <-> (~ In n (v_yielded V') /\ ~ In n (v_done V'))).
  { intros n. cbn [V2 v_yielded v_done set_yielded set_done]. rewrite in_sdiff, in_sunion. specialize (Yn n). rewrite <- EY in Yn.
    destruct (in_dec Nat.eq_dec n (v_yielded V')), (in_dec Nat.eq_dec n ns); tauto. }
  assert (Dj : forall n, In n ns -> ~ In n (v_done V')).
  { intros n In_. apply (vi_disj _ _ _ _ _ Hv). rewrite EY. auto. }
  constructor; auto.
  - destruct Hv. constructor; auto; cbn [V2 v_yielded v_done set_yielded set_done v_pred v_ready].
    + now apply nodup_sdiff.
    + now apply nodup_sunion.
    + intros n I. apply in_sdiff in I. apply vi_yk. tauto.
    + intros n I. apply in_sunion in I. destruct I as [I|I]; auto. apply vi_yk. rewrite EY. auto.
    + intros n I. apply in_sdiff in I. rewrite in_sunion. intros [J|J]; [|tauto]. eapply vi_disj; [|exact J]. tauto.
    + intros n. rewrite vi_ready. specialize (Q n). cbn [V2 v_yielded v_done set_yielded set_done] in Q. tauto.
    + intros n H1 H2 H3. destruct (proj1 (Q n)) as [H4 H5]; [auto|]. destruct (vi_cnt n H1 H4 H5) as (k & A & B).
      exists k. split; auto. rewrite A. do 3 f_equal. apply cnt_ext. intros d _. now rewrite <- FF.
  - cbn. tauto.
  - constructor.
  - intros d n Ed Hd. rewrite FF. apply (Hcl d n Ed). destruct (Q n) as [Q1 Q2].
    destruct (in_dec Nat.eq_dec n (v_yielded V')); auto. destruct (in_dec Nat.eq_dec n (v_done V')); auto. tauto.
  - intros n In_. rewrite (Hp n In_), FF. destruct (fin V' (rev ns) n) eqn:Fn; auto.
    assert (Nn : ~ In n ns). { intros J. unfold fin in Fn. apply orb_false_iff in Fn. destruct Fn as [_ Fn]. apply smem_false in Fn. apply Fn, in_rev. now rewrite rev_involutive. }
    replace (smem n (v_yielded V2)) with (smem n (v_yielded V')).
    2:{ apply eq_true_iff_eq. rewrite !smem_true. cbn [V2 v_yielded set_yielded]. rewrite in_sdiff. tauto. }
    destruct (smem n (v_yielded V')); auto. f_equal. apply unfinished_ext; auto.
  - cbn [V2 v_done set_yielded set_done length]. rewrite Hf, rev_length, Nat.add_0_r. symmetry. apply length_sunion_new.
    apply nodup_app_intro; auto; [apply Hv|]. intros x I1 I2. eapply Dj; eauto.
  - cbn [V2 v_done v_yielded set_yielded set_done length]. rewrite Hps, length_sunion_new.
    + rewrite <- Nat.add_assoc. f_equal. rewrite <- (length_sdiff (v_yielded V') ns); auto; [lia|apply Hv|rewrite EY; auto].
    + apply nodup_app_intro; auto; [apply Hv|]. intros x I1 I2. eapply Dj; eauto.
Qed.

Lemma handout_fold l : forall I : infos, (forall n, In n l -> In n (dkeys I)) ->
  let I' := fold_left (fun I n => dset I n ((-1)%Z, succs I n)) l I in
  dkeys I' = dkeys I /\ (forall d, succs I' d = succs I d) /\ (forall d, npred I' d = if smem d l then (-1)%Z else npred I d).
Proof.
  induction l as [|a t IH]; intros I HK; cbn [fold_left]; [auto|].
  set (I1 := dset I a ((-1)%Z, succs I a)).
  assert (K1 : dkeys I1 = dkeys I) by (apply dkeys_dset_in, HK; cbn; auto).
  destruct (IH I1) as (A & B & C). { intros n In_. rewrite K1. apply HK. cbn. auto. }
  cbv zeta. split; [congruence|]. split.
  - intros d. rewrite B. unfold I1. rewrite succs_dset. destruct (d =? a) eqn:Q; auto. apply Nat.eqb_eq in Q. now subst.
  - intros d. rewrite C. unfold I1. rewrite npred_dset. change (smem d (a :: t)) with ((d =? a) || smem d t).
    destruct (d =? a), (smem d t); auto.
Qed.
Lemma ready_sim X N V s : NI N -> Sim X N V [] s ->
  Sim X N (fst (v_take_ready V)) [] (fst (lib_get_ready s)) /\
  Permutation (v_ready V) (snd (lib_get_ready s)) /\ (X -> v_ready V = snd (lib_get_ready s)).
Proof.
  intros HN H. pose proof H as H'. destruct H' as [Hk He Hx Hv Hc Hm Hmn Hcl Hp Hr Hrx Hf Hps].
  split; [|split; [now apply Permutation_sym|intros HX; symmetry; apply (Hrx HX)]].
  cbn [v_take_ready lib_get_ready fst].
  assert (Rin : forall n, In n (l_ready s) <-> In n (v_ready V)).
  { intros n. split; apply Permutation_in; auto. now apply Permutation_sym. }
  destruct (handout_fold (l_ready s) (l_info s)) as (A & B & C).
  { intros n I. rewrite Rin, (Sim_ready X N V [] s n HN H) in I. rewrite Hk. tauto. }
  match type of A with dkeys ?x = _ => set (I' := x) in * end.
  set (V2 := set_ready (set_yielded V (sunion (v_yielded V) (v_ready V))) []).
  assert (FF : forall d, fin V2 [] d = fin V [] d) by reflexivity.
  assert (Dj : forall n, In n (v_ready V) -> ~ In n (v_yielded V) /\ ~ In n (v_done V)).
  { intros n I. apply (Sim_ready X N V [] s n HN H) in I. tauto. }
  constructor; cbn [l_info l_ready l_passed l_finished]; auto.
  - congruence.
  - intros d n. now rewrite B.
  - intros HX d. now rewrite B, (Hx HX).
  - destruct Hv. constructor; auto; cbn [V2 v_yielded v_done set_yielded set_ready v_pred v_ready].
    + now apply nodup_sunion.
    + intros n I. apply in_sunion in I. destruct I as [I|I]; auto. apply vi_ready in I. tauto.
    + intros n I. apply in_sunion in I. destruct I as [I|I]; auto. apply Dj in I. tauto.
    + intros n. rewrite in_sunion, vi_ready. split; [intros []|]. intros (H1 & H2 & H3 & H4). tauto.
    + intros n H1 H2 H3. rewrite in_sunion in H2. apply vi_cnt; auto.
  - cbn. tauto.
  - intros d n Ed. rewrite FF. cbn [V2 v_yielded v_done set_yielded set_ready]. rewrite in_sunion. intros [[I|I]|I]; eauto.
    apply (Sim_ready X N V [] s n HN H) in I. apply I, Ed.
  - intros n In_. rewrite C, FF. destruct (smem_in n (l_ready s)) as [I|I].
    + apply Rin in I. destruct (Dj n I) as [D1 D2]. unfold fin. rewrite (proj2 (smem_false n (v_done V)) D2).
      change (smem n []) with false. cbn [orb]. replace (smem n (v_yielded V2)) with true; auto.
      symmetry. apply smem_true. cbn. apply in_sunion. auto.
    + rewrite (Hp n In_). rewrite Rin in I. destruct (fin V [] n); auto.
      replace (smem n (v_yielded V2)) with (smem n (v_yielded V)).
      2:{ apply eq_true_iff_eq. rewrite !smem_true. cbn. rewrite in_sunion. tauto. }
      destruct (smem n (v_yielded V)); auto. f_equal. apply unfinished_ext; auto.
  - cbn [V2 v_done v_yielded set_yielded set_ready]. rewrite length_sunion_new, (Permutation_length Hr), Hps; [lia|].
    apply nodup_app_intro; try apply Hv. intros x I1 I2. apply Dj in I2. tauto.
Qed.
Lemma active_sim X N V s : NI N -> acyclic (edgeP N) -> Sim X N V [] s ->
  (length (v_done V) <? length N)%nat = lib_is_active s.
Proof.
  intros HN HA H. pose proof H as H'. destruct H' as [Hk He Hx Hv Hc Hm Hmn Hcl Hp Hr Hrx Hf Hps].
  unfold lib_is_active. rewrite Hf, Hps. cbn [length]. rewrite Nat.add_0_r.
  assert (LN : length N = length (dkeys N)) by (unfold dkeys; now rewrite map_length). rewrite LN.
  assert (Some_ : forall n, In n (dkeys N) -> ~ In n (v_done V) -> (length (v_done V) <? length (dkeys N)) = true).
  { intros n I1 I2. apply Nat.ltb_lt. assert (ND : NoDup (n :: v_done V)) by (constructor; auto; apply Hv).
    apply (NoDup_incl_length ND). intros x [<-|I]; auto. apply (vi_dk _ _ _ _ _ Hv). auto. }
  destruct (v_yielded V) as [|y ys] eqn:EY.
  - cbn [length]. rewrite Nat.add_0_r, Nat.ltb_irrefl. cbn [orb].
    destruct (l_ready s) as [|r rs] eqn:ER; cbn [negb].
    + apply Nat.ltb_ge. assert (AllD : forall n, In n (dkeys N) -> In n (v_done V)).
      { set (R := filter (fun n => negb (smem n (v_done V))) (dkeys N)).
        destruct R as [|r0 rt] eqn:EqR.
        - intros n I. destruct (in_dec Nat.eq_dec n (v_done V)) as [|F]; auto. exfalso.
          assert (J : In n R) by (apply filter_In; split; auto; now apply negb_true_iff, smem_false).
          rewrite EqR in J. exact J.
        - exfalso. destruct (finite_pred_cycle (edgeP N) R) as (x & _ & C).
          + rewrite EqR. discriminate.
          + intros n I. apply filter_In in I. destruct I as [I1 I2]. apply negb_true_iff, smem_false in I2.
            assert (Nr : ~ In n (v_ready V)). { intros F. apply (Permutation_in _ (Permutation_sym Hr)) in F. exact F. }
            rewrite (Sim_ready X N V [] s n HN H), EY in Nr.
            assert (Cn := Sim_vpred X N V [] s n H I1). rewrite EY in Cn. specialize (Cn (fun F => F) I2).
            destruct (existsb (fun d => edge N d n && negb (fin V [] d)) (dkeys N)) eqn:Ex.
            * apply existsb_exists in Ex. destruct Ex as (d & D1 & D2). apply andb_true_iff in D2. destruct D2 as [D2 D3].
              exists d. split; auto. apply filter_In. split; auto. unfold fin in D3. change (smem d []) with false in D3. now rewrite orb_false_r in D3.
            * exfalso. apply Nr. split; auto. split; [cbn; tauto|]. split; auto. intros d Ed.
              destruct (fin V [] d) eqn:Fd; auto. rewrite <- Ex. apply existsb_exists. exists d.
              split; [eapply edge_key; eauto|]. now rewrite Ed, Fd.
          + exact (HA x C). }
      apply NoDup_incl_length; [apply HN|exact AllD].
    + assert (I : In r (v_ready V)) by (apply (Permutation_in _ Hr); cbn; auto).
      apply (Sim_ready X N V [] s r HN H) in I. apply (Some_ r); tauto.
  - assert (Iy : In y (v_yielded V)) by (rewrite EY; cbn; auto).
    rewrite (Some_ y); [|apply Hv; auto|apply (vi_disj _ _ _ _ _ Hv); auto].
    symmetry. apply orb_true_iff. left. apply Nat.ltb_lt. cbn [length]. lia.
Qed.

(** the calls *)
Definition tov (c : lcall) : vcall := match c with LGetReady => CReady | LDone ns => CDone ns | LIsActive => CBool end.
Lemma calls_sim X N S cs : NI N -> acyclic (edgeP N) -> forall V s, Sim X N V [] s ->
  (forall ns, In (LDone ns) cs -> NoDup ns) ->
  Forall2 same_result (until_error (vresults N S V (map tov cs))) (lib_calls s cs) /\
  (X -> until_error (vresults N S V (map tov cs)) = lib_calls s cs).
Proof.
  intros HN HA. induction cs as [|c t IH]; intros V s H HD; cbn [map vresults until_error lib_calls]; [auto|].
  assert (HD' : forall ns, In (LDone ns) t -> NoDup ns) by (intros; apply HD; cbn; auto).
  destruct c; cbn [tov vstep lib_call]; rewrite (si_conf _ _ _ _ _ H).
  - destruct (ready_sim X N V s HN H) as (S' & P & E). cbn [lib_get_ready fst snd] in *.
    destruct (IH _ _ S' HD') as [A B]. split.
    + constructor; auto. right. eauto.
    + intros HX. rewrite (E HX), (B HX). auto.
  - destruct (done_sim X N ns V s HN H) as [(V' & s' & E1 & E2)|(V' & s' & E1 & E2 & S')]; [apply HD; cbn; auto| |];
      rewrite E1, E2; cbn [fst snd rmap].
    + split; auto. constructor; auto. left. auto.
    + destruct (IH _ _ S' HD') as [A B]. split.
      * constructor; auto. left. auto.
      * intros HX. now rewrite (B HX).
  - cbn [fst snd]. rewrite (active_sim X N V s HN HA H). destruct (IH _ _ H HD') as [A B]. split.
    + constructor; auto. left. auto.
    + intros HX. now rewrite (B HX).
Qed.

(** add() keeps the ready nodes in the order in which the nodes came *)
Lemma lremove_filter x P K : NoDup K -> exists Q, lremove x (filter P K) = filter Q K.
Proof.
  intros ND. exists (fun y => P y && negb (x =? y)). induction K as [|a t IH]; auto. inversion ND; subst.
  cbn [filter]. destruct (P a) eqn:Pa; cbn [andb]; auto.
  cbn [lremove]. destruct (x =? a) eqn:E; cbn [negb]; [|now rewrite IH].
  apply Nat.eqb_eq in E. subst a. apply filter_ext_in. intros y Iy. destruct (x =? y) eqn:E; [apply Nat.eqb_eq in E; congruence|].
  now rewrite andb_true_r.
Qed.
Lemma succs_ready node K ss : forall v v', NoDup K -> for_each (fun v s => v_add_successor v s node) v ss = (v', Ok tt) ->
  (exists P, v_ready v = filter P K) -> exists P, v_ready v' = filter P K.
Proof.
  induction ss as [|d t IH]; intros v v' ND E HP; cbn [for_each] in E; [injection E as <-; auto|].
  destruct (v_add_successor v d node) as [v1 [[]|]] eqn:E1; [|discriminate].
  apply (IH v1 v' ND E). destruct HP as [P HP]. unfold v_add_successor in E1. cbv zeta in E1.
  set (v0 := if _ && _ then _ else v) in E1. assert (R0 : v_ready v0 = v_ready v) by (unfold v0; destruct (_ && _); auto).
  clearbody v0. destruct (negb (smem node (v_done v0))); [|injection E1 as <-; exists P; congruence].
  destruct (dget (v_pred v0) node); [|discriminate].
  destruct (_ =? 1)%Z; injection E1 as <-; cbn [v_ready set_ready set_pred]; rewrite R0, HP; eauto using lremove_filter.
Qed.
Lemma nodes_ready K ns v : NoDup (K ++ ns) -> (exists P, v_ready v = filter P K) -> exists P, v_ready (v_add_nodes v ns) = filter P (K ++ ns).
Proof.
  intros ND [P HP]. exists (fun y => smem y ns || P y). rewrite add_nodes_eq. cbn [v_ready]. rewrite filter_app, HP. f_equal.
  - apply filter_ext_in. intros y Iy. replace (smem y ns) with false; auto. symmetry. apply smem_false. intros F. eapply nodup_app_disj; eauto.
  - transitivity (filter (fun _ => true) ns). { clear. induction ns; cbn; congruence. }
    apply filter_ext_in. intros y Iy. now rewrite (proj2 (smem_true y ns) Iy).
Qed.

(** the world while the graph is being built *)
Definition built (N : nodes_t) (d : bool) (V : view) : world := mkW [mkG N d [0; 1] 0 1] [V; V].
Record BI (X : Prop) (pre : list (nat * list nat)) (N : nodes_t) (d : bool) (V : view) (I : infos) : Prop := mkBI {
  bi_ni : NI N;
  bi_vi : VI (dkeys N) (edge N) none1 none2 V;
  bi_y : v_yielded V = []; bi_d : v_done V = []; bi_g : v_graph V = Some 0;
  bi_r : exists P, v_ready V = filter P (dkeys N);
  bi_li : LI X N I;
  bi_dirty : d = false -> acyclic (edgeP N);
  bi_decl : forall a b, edge N a b = true <-> declared pre a b
}.
Lemma declared_snoc pre n ds a b : declared (pre ++ [(n, ds)]) a b <-> declared pre a b \/ (b = n /\ In a ds).
Proof.
  unfold declared. split.
  - intros (l & I & J). apply in_app_iff in I. destruct I as [I|[[= <- <-]|[]]]; eauto.
  - intros [(l & I & J)|[-> J]]; [exists l|exists ds]; rewrite in_app_iff; cbn; auto.
Qed.
Lemma add_built X ord pre N d V I n ds : BI X pre N d V I ->
  (X -> no_repeats (pre ++ [(n, ds)])) ->
  exists N' d' V', step ord (built N d V) (OAdd 0 n ds) = (built N' d' V', Ok VUnit) /\
    BI X (pre ++ [(n, ds)]) N' d' V' (lib_add I n ds).
Proof.
  intros [HN HV HY HD HG HR HL Hd He] HX.
  set (a := add_nodes_part N d n ds).
  destruct (add_nodes_part_spec N d n ds HN) as (A1 & A2 & A3 & A4 & A5 & A6 & A7). fold a in A1, A2, A3, A4, A5, A6, A7.
  destruct (VI_add N d n ds none1 none2 V HV HN) as (V' & F & G' & Y & D & VI'). fold a in F, VI'.
  exists (a_nodes a), (a_dirty a), V'. split.
  - cbn [step]. unfold with_graph, built at 1. cbn [w_graphs nth_error]. unfold g_add. cbn [g_nodes g_dirty g_views w_views built].
    fold a.
    pose proof (add_eff_views (a_new a) (a_succ a) n [V; V] [0; 1]) as EF.
    assert (N1 : notify (fun v => (v_add_nodes v (a_new a), Ok tt)) [V; V] [0; 1] = ([v_add_nodes V (a_new a); v_add_nodes V (a_new a)], Ok tt)) by reflexivity.
    assert (N2 : notify (fun v => for_each (fun v s => v_add_successor v s n) v (a_succ a)) [v_add_nodes V (a_new a); v_add_nodes V (a_new a)] [0; 1] = ([V'; V'], Ok tt)).
    { unfold notify. cbn [for_each nth_error]. rewrite F. cbn [upd nth_error]. rewrite F. reflexivity. }
    rewrite N1, N2 in EF.
    clear N1 N2 F A2. destruct (a_new a) as [|x0 l0].
    + cbv beta iota in EF |- *. rewrite EF. reflexivity.
    + destruct (notify (fun v : view => (v_add_nodes v (x0 :: l0), Ok tt)) [V; V] [0; 1]) as [st [[]|e]]; [|discriminate].
      cbv beta iota in EF |- *. rewrite EF. reflexivity.
  - constructor; auto; try congruence.
    + eapply VI_ext; [| | |exact VI']; cbv beta; auto; intros; unfold none1, none2; rewrite ?HD, ?HY; cbn [In]; split; try tauto; intros [?|?]; try tauto; [destruct H as (_ & _ & ? & _ & _ & [])].
    + rewrite A2. eapply succs_ready; [|exact F|]. { rewrite <- A2. apply A1. }
      apply nodes_ready; auto. rewrite <- A2. apply A1.
    + apply LI_add; auto. intros HX'. specialize (HX HX'). unfold no_repeats in HX. rewrite flat_map_app in HX.
      cbn [flat_map fst snd] in HX. rewrite app_nil_r in HX. split.
      * apply nodup_app_r in HX. eapply NoDup_map_inv; eauto.
      * intros x Ix. destruct (edge N x n) eqn:E; auto. exfalso. apply He in E. destruct E as (l & L1 & L2).
        apply (nodup_app_disj _ _ (x, n) HX).
        -- apply in_flat_map. exists (n, l). split; auto. apply in_map_iff. exists x. auto.
        -- apply in_map_iff. exists x. auto.
    + intros Hd'. rewrite A7 in Hd'. apply orb_false_iff in Hd'. destruct Hd' as [Hd1 Hd2].
      apply (proj1 (edge_acyclic_iff (edgeP N) (edgeP (a_nodes a)) ltac:(intros x y; unfold edgeP; rewrite A4; split; auto;
        intros [?|[-> J]]; auto; destruct (edge N x n) eqn:E; auto; assert (In x (a_succ a)) by (apply A6; auto);
        destruct (a_succ a); [contradiction|discriminate]))). auto.
    + intros x y. rewrite A4, declared_snoc, He. tauto.
Qed.

Lemma built_adds X adds : forall pre ords N d V I cs, BI X pre N d V I -> (X -> no_repeats (pre ++ adds)) ->
  length ords = length adds ->
  exists N' d' V', results (combine ords (map (fun a => OAdd 0 (fst a) (snd a)) adds) ++ cs) (built N d V) =
      map (fun _ => Ok VUnit) adds ++ results cs (built N' d' V') /\
    snd (play (combine ords (map (fun a => OAdd 0 (fst a) (snd a)) adds)) [] (built N d V)) = built N' d' V' /\
    BI X (pre ++ adds) N' d' V' (fold_left (fun I a => lib_add I (fst a) (snd a)) adds I).
Proof.
  induction adds as [|[n ds] t IH]; intros pre ords N d V I cs H HX HL.
  - exists N, d, V. destruct ords; [|discriminate]. rewrite app_nil_r. auto.
  - destruct ords as [|o os]; [discriminate|]. cbn [map combine app results fst snd fold_left].
    destruct (add_built X o pre N d V I n ds H) as (N1 & d1 & V1 & E & B).
    { intros Hx. specialize (HX Hx). replace (pre ++ (n, ds) :: t) with ((pre ++ [(n, ds)]) ++ t) in HX by now rewrite <- app_assoc.
      unfold no_repeats in HX |- *. rewrite flat_map_app in HX. eapply nodup_app_l; eauto. }
    rewrite E. destruct (IH (pre ++ [(n, ds)]) os N1 d1 V1 _ cs B) as (N2 & d2 & V2 & E2 & P2 & B2).
    { intros Hx. rewrite <- app_assoc. exact (HX Hx). } { now injection HL. }
    exists N2, d2, V2. rewrite E2. split; auto. split; [|now rewrite <- app_assoc in B2].
    cbn [play]. rewrite E. rewrite <- P2. clear.
    assert (Q : forall l h1 h2 w, snd (play l h1 w) = snd (play l h2 w)).
    { induction l as [|[o' p] l' IHl]; intros h1 h2 w; cbn; auto. destruct (step o' w p). apply IHl. }
    apply Q.
Qed.
Lemma BI_start X : BI X [] [] false (v_fresh 0) [].
Proof.
  constructor; auto.
  - apply NI_nil.
  - apply VI_fresh.
  - exists (fun _ => true). reflexivity.
  - apply LI_nil.
  - intros _ n R. assert (F : forall a b, reaches (edgeP []) a b -> False) by (induction 1; auto; discriminate). eauto.
  - intros a b. split; [discriminate|]. intros (l & [] & _).
Qed.
Lemma BI_sim X pre N d V I : BI X pre N d V I -> Sim X N V [] (lib_prepared I).
Proof.
  intros [HN [HV HC] HY HD HG [P HR] HL Hd He]. destruct HL as [Hk Hed Hp Hx].
  assert (FF : forall x, fin V [] x = false) by (intros x; unfold fin; rewrite HD; auto).
  assert (Zr : forall n, In n (dkeys N) -> P n = (npred I n =? 0)%Z).
  { intros n In_. apply eq_true_iff_eq. rewrite Z.eqb_eq, (Hp n In_).
    transitivity (In n (v_ready V)). { rewrite HR, filter_In. tauto. }
    rewrite (vi_ready _ _ _ _ _ HV), HY, HD. cbn [In].
    destruct (vi_cnt _ _ _ _ _ HV n In_) as (k & E & Q); [rewrite HY; auto|rewrite HD; auto|].
    assert (k = 0) by exact (late_none _ _ Q). subst k. rewrite E.
    transitivity (cnt (dkeys N) (fun d0 => edge N d0 n && negb (smem d0 (v_done V))) = 0).
    { split; [intros (_ & _ & _ & [= Z]); lia|intros ->; auto]. }
    rewrite cnt_zero. transitivity (unfinished (dkeys N) I (fun _ => false) n = 0); [|lia].
    rewrite unfinished_zero, HD. split.
    - intros H x Ix Is. apply Hed in Is. specialize (H x Ix). cbn in H. now rewrite Is in H.
    - intros H x Ix. destruct (edge N x n) eqn:Ed; auto. specialize (H x Ix (proj2 (Hed x n) Ed)). discriminate. }
  assert (RR : l_ready (lib_prepared I) = v_ready V).
  { rewrite HR. cbn [l_ready lib_prepared].
    transitivity (filter (fun n => (npred I n =? 0)%Z) (dkeys I)).
    - assert (ND : NoDup (dkeys I)) by (rewrite Hk; apply HN). clear - ND.
      assert (Q : forall J K : infos, NoDup (dkeys (J ++ K)) ->
        map fst (filter (fun p => (fst (snd p) =? 0)%Z) K) = filter (fun n => (npred (J ++ K) n =? 0)%Z) (dkeys K)).
      { intros J K. revert J. induction K as [|[n [k ss]] t IH]; intros J NDK; cbn; auto.
        assert (E : npred (J ++ (n, (k, ss)) :: t) n = k).
        { unfold npred. assert (Nn : ~ In n (dkeys J)). { unfold dkeys in NDK. rewrite map_app in NDK. cbn in NDK. apply NoDup_remove_2 in NDK. rewrite in_app_iff in NDK. tauto. }
          clear - Nn. induction J as [|[a b] J IHJ]; cbn.
          - now rewrite Nat.eqb_refl.
          - cbn in Nn. destruct (n =? a) eqn:Q; [apply Nat.eqb_eq in Q; subst; tauto|]. apply IHJ. tauto. }
        rewrite E. replace (J ++ (n, (k, ss)) :: t) with ((J ++ [(n, (k, ss))]) ++ t) in * by now rewrite <- app_assoc.
        specialize (IH _ NDK). cbn [fst snd]. destruct (k =? 0)%Z; cbn [map fst]; now rewrite IH. }
      apply (Q [] I ND).
    - rewrite Hk. apply filter_ext_in. intros n In_. now rewrite Zr. }
  constructor; cbn [l_info lib_prepared l_finished l_passed]; auto.
  - eapply VIg_ext; [| |exact HV]; [|tauto]. intros x y _ _. unfold fin. change (smem x []) with false. now rewrite orb_false_r.
  - destruct HC. destruct (v_conf V) as [|[a l] t] eqn:E; auto. exfalso. destruct ci_wf as [_ W]. specialize (W a l). cbn in W. rewrite Nat.eqb_refl in W.
    specialize (W eq_refl). destruct l as [|b l]; [congruence|]. destruct (proj1 (ci_c a b)). exists (b :: l). cbn. rewrite Nat.eqb_refl. auto.
  - cbn. tauto.
  - constructor.
  - rewrite HY, HD. intros x n _ [[]|[]].
  - intros n In_. rewrite FF, HY. cbn [smem existsb]. rewrite (Hp n In_). f_equal. apply unfinished_ext; auto.
  - rewrite RR. apply Permutation_refl.
  - rewrite HD. reflexivity.
  - rewrite HD, HY. reflexivity.
Qed.
Lemma until_error_app_ok {A} (l : list A) r : until_error (map (fun _ => Ok VUnit) l ++ r) = map (fun _ => Ok VUnit) l ++ until_error r.
Proof. induction l; cbn; congruence. Qed.

Definition orders := list (list nat -> list nat).
Theorem drop_in (X : Prop) adds cs ords raises :
  (X -> no_repeats adds) ->
  length ords = length (big_program adds cs) -> Forall set_order ords ->
  (raises = true <-> ~ acyclic (declared adds)) ->
  (forall ns, In (LDone ns) cs -> NoDup ns) ->
  Forall2 same_result (until_error (results (combine ords (big_program adds cs)) (mkW [] [])))
    (Ok (VGraph 0 0) :: lib_run raises adds cs) /\
  (X -> until_error (results (combine ords (big_program adds cs)) (mkW [] [])) = Ok (VGraph 0 0) :: lib_run raises adds cs).
Proof.
  intros HX HL HO HR HD. unfold big_program in *. destruct ords as [|o0 os]; [discriminate|].
  cbn [combine results step length] in HL |- *. injection HL as HL. rewrite app_length in HL. cbn [length] in HL.
  rewrite !map_length in HL.
  change (new_graph (mkW [] [])) with (built [] false (v_fresh 0)).
  set (os1 := firstn (length adds) os). set (os2 := skipn (length adds) os).
  assert (E : combine os (map (fun a => OAdd 0 (fst a) (snd a)) adds ++ OCheck 0 :: map big_call cs) =
    combine os1 (map (fun a => OAdd 0 (fst a) (snd a)) adds) ++ combine os2 (OCheck 0 :: map big_call cs)).
  { rewrite <- (firstn_skipn (length adds) os) at 1. fold os1 os2.
    assert (L : length os1 = length (map (fun a : nat * list nat => OAdd 0 (fst a) (snd a)) adds)).
    { unfold os1. rewrite firstn_length, map_length. lia. }
    clear - L. revert L. generalize (map (fun a : nat * list nat => OAdd 0 (fst a) (snd a)) adds). generalize (OCheck 0 :: map big_call cs). generalize os2.
    induction os1 as [|x t IH]; intros a b c L; destruct c; cbn in *; try discriminate; auto. f_equal. apply IH. congruence. }
  rewrite E. destruct (built_adds X adds [] os1 [] false (v_fresh 0) [] (combine os2 (OCheck 0 :: map big_call cs)) (BI_start X)) as (N & d & V & R1 & _ & B).
  { exact HX. } { unfold os1. rewrite firstn_length. lia. }
  rewrite R1. cbn [app] in B. fold (lib_graph adds) in B.
  assert (L2 : length os2 = S (length cs)) by (unfold os2; rewrite skipn_length; lia).
  assert (HO2 : Forall set_order os2).
  { inversion HO; subst. unfold os2. rewrite <- (firstn_skipn (length adds) os) in H2. apply Forall_app in H2. tauto. }
  destruct os2 as [|o2 os3]; [discriminate|]. inversion HO2; subst. clear E.
  cbn [combine results step until_error]. rewrite until_error_app_ok. unfold with_graph, built at 1 4. cbn [w_graphs nth_error g_nodes g_dirty].
  pose proof (bi_ni _ _ _ _ _ _ B) as HN.
  assert (AC : acyclic (edgeP N) <-> acyclic (declared adds)) by (apply edge_acyclic_iff, (bi_decl _ _ _ _ _ _ B)).
  unfold lib_run.
  destruct (check_spec N o2 d HN H1 (bi_dirty _ _ _ _ _ _ B)) as [[A Ec]|(A & _ & Ec)]; rewrite Ec; cbn [rmap until_error].
  - assert (raises = false) as -> by (destruct raises; auto; exfalso; apply HR; auto; tauto).
    pose proof (BI_sim _ _ _ _ _ _ B) as S0.
    assert (Rs : results (combine os3 (map big_call cs)) (put_graph (built N d V) 0 (set_dirty (mkG N d [0; 1] 0 1) false)) =
                 vresults N V V (map tov cs)).
    { assert (Em : combine os3 (map big_call cs) = map (fun p => (fst p, on_view 0 (snd p))) (combine os3 (map tov cs))).
      { clear. revert os3. induction cs as [|c t IH]; intros [|o os]; cbn; auto. rewrite IH. f_equal. destruct c; auto. }
      rewrite Em, (results_one _ _ 0 0 N 1 V V); auto.
      - f_equal. assert (L3 : length os3 = length (map tov cs)) by (rewrite map_length; cbn in L2; lia).
        clear - L3. revert os3 L3. generalize (map tov cs). induction l as [|c t IH]; intros [|o os] L; cbn in *; try discriminate; auto. f_equal. apply IH. lia.
      - split; [reflexivity|]. split; [apply B|]. split; [|split; [reflexivity|auto]]. eexists. split; [reflexivity|]. auto.
      - intros ord c I. apply in_combine_l in I. rewrite Forall_forall in H2. auto. }
    rewrite Rs. destruct (calls_sim X N V cs HN A V _ S0 HD) as [C1 C2]. split.
    + constructor; [left; auto|]. apply Forall2_app.
      * clear. induction adds; constructor; auto. left. auto.
      * constructor; [left; auto|]. exact C1.
    + intros Hx. now rewrite (C2 Hx).
  - assert (raises = true) as -> by (apply HR; tauto). split; [|auto].
    constructor; [left; auto|]. apply Forall2_app.
    + clear. induction adds; constructor; auto. left. auto.
    + constructor; [left; auto|constructor].
Qed.

(** static_order *)
Lemma holds_next x v gi N s S V V' x' : holds x v gi N s S V -> v_graph V' = v_graph V ->
  nth_error (w_views x') v = Some V' -> (forall i, i <> v -> nth_error (w_views x') i = nth_error (w_views x) i) ->
  (forall g G, nth_error (w_graphs x) g = Some G -> exists G', nth_error (w_graphs x') g = Some G' /\
       g_nodes G' = g_nodes G /\ g_stock G' = g_stock G) -> holds x' v gi N s S V'.
Proof.
  intros (A & B & (G & C1 & C2 & C3) & D & F) HG E1 E2 E3. split; auto. split; [congruence|].
  split; [|split; [rewrite E2; auto|auto]]. destruct (E3 _ _ C1) as (G' & ? & ? & ?). exists G'. intuition congruence.
Qed.
Lemma order_sim (X : Prop) N ord v gi st S fuel : X -> NI N -> acyclic (edgeP N) -> set_order ord -> forall x V s out,
  Sim X N V [] s -> holds x v gi N st S V ->
  option_map snd (order_loop ord fuel x v out) = lib_order fuel s out.
Proof.
  intros HX HN HA HO. induction fuel as [|f IH]; intros x V s out HS HH; cbn [order_loop lib_order]; auto.
  destruct (vstep_world ord x v gi N st S V CBool HO HN HA HH) as (x1 & E & E1 & E2 & E3).
  cbn [vstep fst snd] in E, E1. rewrite (si_conf _ _ _ _ _ HS) in E, E1. cbn [fst snd] in E, E1.
  cbn [on_view] in E. rewrite E, (active_sim X N V s HN HA HS).
  destruct (lib_is_active s); [|auto].
  assert (HH1 : holds x1 v gi N st S V) by (eapply holds_next; eauto).
  destruct (vstep_world ord x1 v gi N st S V CReady HO HN HA HH1) as (x2 & F & F1 & F2 & F3).
  cbn [vstep fst snd] in F, F1. rewrite (si_conf _ _ _ _ _ HS) in F, F1. cbn [fst snd] in F, F1.
  cbn [on_view] in F. rewrite F.
  destruct (ready_sim X N V s HN HS) as (S2 & P & Q).
  rewrite (Q HX) in *. destruct (lib_get_ready s) as [s2 l] eqn:EL. cbn [fst snd] in *.
  assert (HH2 : holds x2 v gi N st S (fst (v_take_ready V))) by (eapply holds_next; [exact HH1| |eauto|eauto|eauto]; reflexivity).
  destruct (vstep_world ord x2 v gi N st S (fst (v_take_ready V)) (CDone l) HO HN HA HH2) as (x3 & K & K1 & K2 & K3).
  assert (VG := vstep_graph N S (fst (v_take_ready V)) (CDone l)).
  cbn [vstep] in K, K1, VG. rewrite (si_conf _ _ _ _ _ S2) in K, K1, VG. cbn [fst snd] in K, K1, VG.
  cbn [on_view] in K. rewrite K.
  destruct (done_sim X N l (fst (v_take_ready V)) s2 HN S2) as [(V' & s' & G1 & G2)|(V' & s' & G1 & G2 & S3)].
  - rewrite <- (Q HX). apply (si_vi _ _ _ _ _ HS).
  - rewrite G1, G2. cbn [snd rmap option_map]. auto.
  - rewrite G1 in *. rewrite G2. cbn [snd fst rmap] in *. apply (IH _ V'); auto.
    eapply holds_next; eauto.
Qed.
Theorem static_order_same adds ords ord fuel raises :
  no_repeats adds -> length ords = S (length adds) -> set_order ord ->
  (raises = true <-> ~ acyclic (declared adds)) ->
  option_map snd (static_order ord (S fuel) (snd (play (combine ords (ONewGraph :: map (fun a => OAdd 0 (fst a) (snd a)) adds)) [] (mkW [] []))) 0) =
  lib_static_order raises (S fuel) adds.
Proof.
  intros HX HL HO HR. destruct ords as [|o0 os]; [discriminate|]. cbn [combine play step].
  change (new_graph (mkW [] [])) with (built [] false (v_fresh 0)).
  assert (Q : forall l h1 h2 w, snd (play l h1 w) = snd (play l h2 w)).
  { induction l as [|[o' p] l' IHl]; intros h1 h2 w; cbn; auto. destruct (step o' w p). apply IHl. }
  rewrite (Q _ _ []).
  destruct (built_adds (no_repeats adds) adds [] os [] false (v_fresh 0) [] [] (BI_start _)) as (N & d & V & _ & P & B).
  { auto. } { cbn in HL. lia. }
  rewrite P. cbn [app] in B. fold (lib_graph adds) in B.
  pose proof (bi_ni _ _ _ _ _ _ B) as HN.
  assert (AC : acyclic (edgeP N) <-> acyclic (declared adds)) by (apply edge_acyclic_iff, (bi_decl _ _ _ _ _ _ B)).
  pose proof (BI_sim _ _ _ _ _ _ B) as S0.
  unfold static_order, lib_static_order.
  assert (Ev : step ord (built N d V) (OView 0) = (mkW [mkG N d [0; 1; 2] 0 1] [V; V; V], Ok (VView 2))).
  { cbn. unfold copy_view. cbn. rewrite (bi_g _ _ _ _ _ _ B). reflexivity. }
  rewrite Ev. destruct (check_spec N ord d HN HO (bi_dirty _ _ _ _ _ _ B)) as [[A Ec]|(A & Ed & Ec)].
  - assert (raises = false) as -> by (destruct raises; auto; exfalso; apply HR; auto; tauto).
    apply (order_sim (no_repeats adds) N ord 2 0 1 V (S fuel) HX HN A HO _ V); auto.
    split; [reflexivity|]. split; [apply B|]. split; [|split; [reflexivity|auto]]. eexists. split; [reflexivity|]. auto.
  - assert (raises = true) as -> by (apply HR; tauto).
    assert (NE : 0 < length N).
    { destruct N; [|cbn; lia]. exfalso. apply A. intros n R. assert (F : forall a b, reaches (edgeP []) a b -> False) by (induction 1; auto; discriminate). eauto. }
    cbn [order_loop step]. unfold with_open, with_graph. cbn [w_views nth_error]. rewrite (bi_g _ _ _ _ _ _ B). cbn [w_graphs nth_error g_nodes g_dirty].
    unfold no_conflict. rewrite (si_conf _ _ _ _ _ S0), (bi_d _ _ _ _ _ _ B). cbn [length].
    apply Nat.ltb_lt in NE. rewrite NE. cbn [w_views w_graphs nth_error]. rewrite (bi_g _ _ _ _ _ _ B), (si_conf _ _ _ _ _ S0). cbn [w_graphs nth_error g_nodes g_dirty]. rewrite Ec. reflexivity.
Qed.
