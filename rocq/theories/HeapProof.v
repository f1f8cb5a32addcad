(** heapq preserves the heap shape and the multiset; Heap refines HeapSpec. *)
From Verif Require Import PyBase PyBaseProof HeapModel HeapSpec.
Require Import ZifyBool ZifyNat.
Ltac Zify.zify_post_hook ::= Z.div_mod_to_equations.

Lemma nth_indep' {A} (l : list A) i d d' : i < length l -> nth i l d = nth i l d'.
Proof. intros; apply nth_indep; auto. Qed.

Section HeapqFacts.
  Context {A : Type} (ltb : A -> A -> bool).
  Hypothesis W : strict_weak ltb.
  Notation par j := ((j - 1) / 2).

  (** position [p] lies in the subtree rooted at [s] *)
  Inductive desc (s : nat) : nat -> Prop :=
  | desc_self : desc s s
  | desc_step p : s < p -> desc s (par p) -> desc s p.
  Lemma desc_ge s p : desc s p -> s <= p.
  Proof. induction 1; lia. Qed.
  Lemma desc_zero p : desc 0 p.
  Proof.
    induction p as [p IH] using (well_founded_induction lt_wf).
    destruct p as [|p]; [constructor|]. apply desc_step; [lia|]. apply IH. lia.
  Qed.
  Lemma desc_child s p c : desc s p -> c = 2 * p + 1 \/ c = 2 * p + 2 -> desc s c.
  Proof.
    intros H Hc. pose proof (desc_ge _ _ H). apply desc_step; [lia|]. replace (par c) with p by lia. auto.
  Qed.

  Definition ok (d : A) (l : list A) (j : nat) : Prop := ltb (nth j l d) (nth (par j) l d) = false.
  (** heap order holds wherever the parent is at or after [s] *)
  Definition shape (d : A) (s : nat) (l : list A) : Prop :=
    forall j, 0 < j < length l -> s <= par j -> ok d l j.

  Lemma siftdown_loop_spec d fuel : forall heap x s pos,
    pos < length heap -> pos <= fuel -> desc s pos ->
    (forall j, 0 < j < length heap -> j <> pos -> s <= par j -> ok d (upd heap pos x) j) ->
    (forall j, 0 < j < length heap -> par j = pos -> s < pos ->
        ltb (nth j heap d) (nth (par pos) heap d) = false) ->
    let r := siftdown_loop ltb fuel heap x s pos in
    length r = length heap /\ Permutation r (upd heap pos x) /\ shape d s r.
  Proof.
    induction fuel as [|f IH]; intros heap x s pos Hlt Hf Hd H1 H2; cbn [siftdown_loop].
    - rewrite upd_length. split; auto. split; auto. intros j Hj Hp. rewrite upd_length in Hj. apply H1; auto. lia.
    - destruct (Nat.ltb_spec s pos) as [Hsp|Hsp].
      + inversion Hd as [|? _ Hd']; subst; [lia|].
        pose proof (desc_ge _ _ Hd') as Hge.
        assert (Hpp : par pos < length heap) by lia.
        rewrite (nth_indep' heap (par pos) x d Hpp).
        destruct (ltb x (nth (par pos) heap d)) eqn:E.
        * destruct (IH (upd heap pos (nth (par pos) heap d)) x s (par pos)) as (L & P & S); try (rewrite upd_length; lia); try lia; auto.
          -- intros j Hj Hn Hs. rewrite upd_length in Hj. unfold ok.
             rewrite !nth_upd by (rewrite ?upd_length; lia).
             destruct (Nat.eqb_spec (par pos) j); [lia|].
             specialize (H1 j Hj). unfold ok in H1. rewrite !nth_upd in H1 by lia.
             destruct (Nat.eqb_spec pos j) as [->|Hpj].
             ++ destruct (Nat.eqb_spec (par j) (par j)); [|lia]. apply (sw_asym ltb W); auto.
             ++ specialize (H1 ltac:(auto) Hs).
                destruct (Nat.eqb_spec (par pos) (par j)) as [Hpp'|Hpp'].
                ** destruct (Nat.eqb_spec pos (par j)); [lia|].
                   rewrite <- Hpp' in H1.
                   apply (sw_le_trans ltb W) with (nth (par pos) heap d); auto. apply (sw_asym ltb W); auto.
                ** destruct (Nat.eqb_spec pos (par j)) as [Hq|Hq]; auto.
          -- intros j Hj Hp Hs. rewrite upd_length in Hj.
             rewrite !nth_upd by lia. destruct (Nat.eqb_spec pos (par (par pos))); [lia|].
             assert (Hk : ok d (upd heap pos x) (par pos)).
             { apply H1; try lia. inversion Hd'; subst; [lia|]. apply desc_ge; auto. }
             unfold ok in Hk. rewrite !nth_upd in Hk by lia.
             destruct (Nat.eqb_spec pos (par pos)); [lia|]. destruct (Nat.eqb_spec pos (par (par pos))); [lia|].
             destruct (Nat.eqb_spec pos j) as [->|Hpj]; auto.
             assert (Hj1 : ok d (upd heap pos x) j) by (apply H1; lia).
             unfold ok in Hj1. rewrite !nth_upd in Hj1 by lia.
             destruct (Nat.eqb_spec pos j); [lia|]. destruct (Nat.eqb_spec pos (par j)); [lia|].
             rewrite Hp in Hj1. apply (sw_le_trans ltb W) with (nth (par pos) heap d); auto.
          -- rewrite upd_length in L. split; auto. split; auto.
             rewrite P. apply upd_move_perm; lia.
        * rewrite upd_length. split; auto. split; auto. intros j Hj Hp. rewrite upd_length in Hj.
          destruct (Nat.eq_dec j pos) as [->|Hn]; [|apply H1; auto].
          unfold ok. rewrite !nth_upd by lia. rewrite Nat.eqb_refl.
          destruct (Nat.eqb_spec pos (par pos)); [lia|]. auto.
      + rewrite upd_length. split; auto. split; auto. intros j Hj Hp. rewrite upd_length in Hj.
        apply H1; auto. pose proof (desc_ge _ _ Hd). lia.
  Qed.

  Lemma siftup_loop_spec d fuel : forall heap x s pos,
    pos < length heap -> length heap <= fuel + pos -> desc s pos ->
    (forall j, 0 < j < length heap -> j <> pos -> par j <> pos -> s <= par j -> ok d heap j) ->
    (forall j, 0 < j < length heap -> par j = pos -> s < pos ->
        ltb (nth j heap d) (nth (par pos) heap d) = false) ->
    let '(h, p) := siftup_loop ltb fuel heap x (length heap) pos in
    length h = length heap /\ Permutation (upd h p x) (upd heap pos x) /\
    p < length heap /\ length heap <= 2 * p + 1 /\ desc s p /\
    (forall j, 0 < j < length heap -> j <> p -> s <= par j -> ok d h j).
  Proof.
    induction fuel as [|f IH]; intros heap x s pos Hlt Hf Hd H1 H2; cbn [siftup_loop]; [lia|].
    destruct (Nat.ltb_spec (2 * pos + 1) (length heap)) as [Hc|Hc].
    - set (c := if (_ && _)%bool then _ else _).
      assert (Hcr : (c = 2 * pos + 1 \/ c = 2 * pos + 2) /\ c < length heap /\
                 forall j, 0 < j < length heap -> par j = pos -> ltb (nth j heap d) (nth c heap d) = false).
      { assert (Hd1 : nth (2 * pos + 1) heap x = nth (2 * pos + 1) heap d) by (apply nth_indep; lia).
        unfold c. destruct (Nat.ltb_spec (2 * pos + 1 + 1) (length heap)) as [Hr|Hr]; cbn [andb].
        - assert (Hd2 : nth (2 * pos + 1 + 1) heap x = nth (2 * pos + 1 + 1) heap d) by (apply nth_indep; lia).
          rewrite Hd1, Hd2.
          destruct (ltb (nth (2 * pos + 1) heap d) (nth (2 * pos + 1 + 1) heap d)) eqn:E; cbn [negb].
          + split; [lia|]. split; [lia|]. intros j Hj Hp.
            assert (j = 2 * pos + 1 \/ j = 2 * pos + 1 + 1) as [->| ->] by lia.
            * apply sw_irrefl; auto.
            * apply sw_asym; auto.
          + split; [lia|]. split; [lia|]. intros j Hj Hp.
            assert (j = 2 * pos + 1 \/ j = 2 * pos + 1 + 1) as [->| ->] by lia; auto.
            apply sw_irrefl; auto.
        - split; [lia|]. split; [lia|]. intros j Hj Hp.
          assert (j = 2 * pos + 1) as -> by lia. apply sw_irrefl; auto. }
      destruct Hcr as (Hc1 & Hc2 & Hc3). clearbody c.
      assert (Hcx : nth c heap x = nth c heap d) by (apply nth_indep; lia). rewrite Hcx.
      specialize (IH (upd heap pos (nth c heap d)) x s c).
      rewrite upd_length in IH.
      destruct (siftup_loop ltb f (upd heap pos (nth c heap d)) x (length heap) c) as [h p].
      assert (Hpc : par c = pos) by lia.
      destruct IH as (L & P & Hp1 & Hp2 & Hp3 & Hp4); auto; try lia.
      + apply desc_child with pos; auto.
      + intros j Hj Hn Hpn Hs. unfold ok. rewrite !nth_upd by lia.
        destruct (Nat.eqb_spec pos j) as [->|Hpj].
        * destruct (Nat.eqb_spec j (par j)); [lia|]. apply H2; auto; try lia.
        * destruct (Nat.eqb_spec pos (par j)) as [Hq|Hq]; [apply Hc3; lia|].
          apply H1; auto.
      + intros j Hj Hpj Hs. rewrite Hpc. rewrite !nth_upd by lia. rewrite Nat.eqb_refl.
        destruct (Nat.eqb_spec pos j); [lia|].
        pose proof (desc_ge _ _ Hd).
        specialize (H1 j Hj ltac:(lia) ltac:(lia) ltac:(lia)). unfold ok in H1. rewrite Hpj in H1. auto.
      + split; auto. split; [|repeat split; auto].
        rewrite P. apply upd_move_perm; lia.
    - split; auto. split; auto. split; auto. split; [lia|]. split; auto.
      intros j Hj Hn Hs. apply H1; auto. lia.
  Qed.

  Lemma siftup_spec d heap s : s < length heap ->
    (forall j, 0 < j < length heap -> s < par j -> ok d heap j) ->
    length (siftup ltb heap s) = length heap /\ Permutation (siftup ltb heap s) heap /\
    shape d s (siftup ltb heap s).
  Proof.
    intros Hs H. unfold siftup.
    destruct (nth_error heap s) as [x|] eqn:E; [|apply nth_error_None in E; lia].
    pose proof (siftup_loop_spec d (length heap) heap x s s Hs ltac:(lia) (desc_self s)) as K.
    destruct (siftup_loop ltb (length heap) heap x (length heap) s) as [h p].
    destruct K as (L & P & Hp1 & Hp2 & Hp3 & Hp4).
    - intros j Hj Hn1 Hn2 Hs'. apply H; auto. lia.
    - intros; lia.
    - unfold siftdown. assert (Hne : nth_error (upd h p x) p = Some x).
      { rewrite (nth_error_nth' _ d) by (rewrite upd_length; lia). rewrite nth_upd_same by lia. auto. }
      rewrite Hne.
      destruct (siftdown_loop_spec d p (upd h p x) x s p) as (L' & P' & S'); auto.
      + rewrite upd_length; lia.
      + intros j Hj Hn Hsj. rewrite upd_length in Hj. rewrite upd_upd_same. unfold ok.
        assert (par j <> p) by lia.
        rewrite !nth_upd_other by lia. apply Hp4; auto; lia.
      + intros j Hj Hpj. rewrite upd_length in Hj. lia.
      + rewrite upd_upd_same in P'. rewrite upd_length in L'. split; [lia|]. split; auto.
        rewrite P', P. rewrite (nth_error_nth _ _ d E) || idtac.
        replace (upd heap s x) with heap; auto.
        apply nth_error_nth with (d := d) in E. rewrite <- E. symmetry. apply upd_nth.
  Qed.

  (** the heap property in Python's terms *)
  Definition is_heap (l : list A) : Prop := forall d, shape d 0 l.

  Lemma is_heap_least l x t : is_heap l -> l = x :: t -> forall y, In y l -> ltb y x = false.
  Proof.
    intros H -> y Hy. destruct (In_nth _ _ x Hy) as (n & Hn & <-).
    clear Hy. induction n as [n IH] using (well_founded_induction lt_wf).
    destruct n as [|n]; [apply sw_irrefl; auto|].
    assert (Hp : par (S n) < S n) by lia.
    specialize (IH (par (S n)) Hp ltac:(lia)).
    apply (sw_le_trans ltb W) with (nth (par (S n)) (x :: t) x); auto.
    apply (H x); lia.
  Qed.

  Lemma heapify_loop_spec i : forall x, i <= length x ->
    (forall d j, 0 < j < length x -> i <= par j -> ok d x j) ->
    Permutation (heapify_loop ltb i x) x /\ is_heap (heapify_loop ltb i x).
  Proof.
    induction i as [|i IH]; intros x Hi H; cbn [heapify_loop].
    - split; auto.
    - assert (K : forall d, length (siftup ltb x i) = length x /\ Permutation (siftup ltb x i) x /\ shape d i (siftup ltb x i)).
      { intros d. apply siftup_spec; [lia|]. intros j Hj Hp. apply H; auto. }
      destruct x as [|x0 x]; [simpl in Hi; lia|].
      destruct (K x0) as (L & P & _).
      destruct (IH (siftup ltb (x0 :: x) i)) as (P' & S'); [lia| |].
      + intros d. destruct (K d) as (_ & _ & S). exact S.
      + split; auto. rewrite P'; auto.
  Qed.
  Lemma heapify_spec x : Permutation (heapify ltb x) x /\ is_heap (heapify ltb x).
  Proof.
    unfold heapify. apply heapify_loop_spec.
    - lia.
    - intros d j Hj Hp. lia.
  Qed.

  Lemma siftup0_spec x y t : is_heap (y :: t) ->
    Permutation (siftup ltb (x :: t) 0) (x :: t) /\ is_heap (siftup ltb (x :: t) 0).
  Proof.
    intros H.
    assert (K : forall d, length (siftup ltb (x::t) 0) = length (x::t) /\ Permutation (siftup ltb (x::t) 0) (x::t) /\ shape d 0 (siftup ltb (x::t) 0)).
    { intros d. apply siftup_spec; [simpl; lia|]. intros j Hj Hp. specialize (H d j).
      unfold ok in *. simpl length in *. specialize (H Hj ltac:(lia)).
      remember (par j) as p. destruct j as [|j]; [lia|]. destruct p as [|p]; [lia|]. exact H. }
    split; [apply (K x)|]. intros d. apply (K d).
  Qed.

  Lemma heappush_spec l x : is_heap l ->
    Permutation (heappush ltb l x) (x :: l) /\ is_heap (heappush ltb l x).
  Proof.
    intros H. unfold heappush, siftdown. rewrite app_length. simpl length.
    replace (length l + 1 - 1) with (length l) by lia.
    rewrite nth_error_app2, Nat.sub_diag by lia. simpl nth_error.
    assert (K : forall d, let r := siftdown_loop ltb (length l) (l ++ [x]) x 0 (length l) in
      length r = length (l ++ [x]) /\ Permutation r (upd (l ++ [x]) (length l) x) /\ shape d 0 r).
    { intros d. apply siftdown_loop_spec; try (rewrite app_length; simpl; lia); try lia.
      - apply desc_zero.
      - intros j Hj Hn _. rewrite app_length in Hj. simpl in Hj. unfold ok.
        rewrite !nth_upd_other by lia. rewrite !app_nth1 by lia. apply H; lia.
      - intros j Hj Hp. rewrite app_length in Hj. simpl in Hj. lia. }
    assert (E : upd (l ++ [x]) (length l) x = l ++ [x]).
    { clear. induction l; simpl; auto. f_equal; auto. }
    split; [|intros d; apply (K d)].
    destruct (K x) as (_ & P & _). rewrite P, E. symmetry; apply Permutation_cons_append.
  Qed.

  Lemma is_heap_removelast l x : is_heap (l ++ [x]) -> is_heap l.
  Proof.
    intros H d j Hj _. specialize (H d j). rewrite app_length in H. simpl in H.
    unfold ok in *. rewrite !app_nth1 in H by lia. apply H; lia.
  Qed.

  Lemma heappop_spec l : is_heap l ->
    match heappop ltb l with
    | None => l = []
    | Some (x, q) => least ltb x l /\ Permutation l (x :: q) /\ is_heap q
    end.
  Proof.
    intros H. unfold heappop. destruct (rev l) as [|z r] eqn:E.
    - apply (f_equal (@rev A)) in E. rewrite rev_involutive in E. auto.
    - apply (f_equal (@rev A)) in E. rewrite rev_involutive in E. simpl in E.
      destruct (rev r) as [|y t] eqn:E2; subst l.
      + simpl. split; [|split; auto].
        * split; [left; auto|]. intros y [<-|[]]. apply sw_irrefl; auto.
        * intros d j Hj. simpl in Hj. lia.
      + pose proof (is_heap_removelast _ _ H) as H'.
        destruct (siftup0_spec z y t H') as (P & S).
        split; [split|split; auto].
        * simpl. left; auto.
        * intros w Hw. apply (is_heap_least _ y (t ++ [z]) H eq_refl w Hw).
        * simpl. constructor. rewrite P. symmetry. apply Permutation_cons_append.
  Qed.

  Lemma heapreplace_spec l o : is_heap l ->
    match heapreplace ltb l o with
    | None => l = []
    | Some (x, q) => least ltb x l /\ (exists r, Permutation l (x :: r) /\ Permutation q (o :: r)) /\ is_heap q
    end.
  Proof.
    intros H. destruct l as [|y t]; simpl; auto.
    destruct (siftup0_spec o y t H) as (P & S).
    split; [split|split; auto].
    - left; auto.
    - intros w Hw. apply (is_heap_least _ y t H eq_refl w Hw).
    - exists t. split; auto.
  Qed.

  Lemma heappushpop_spec l o : is_heap l ->
    let (x, q) := heappushpop ltb l o in
    least ltb x (o :: l) /\ Permutation (o :: l) (x :: q) /\ is_heap q.
  Proof.
    intros H. destruct l as [|y t]; simpl.
    - split; [|split; auto]. split; [left; auto|]. intros w [<-|[]]. apply sw_irrefl; auto.
    - pose proof (is_heap_least _ y t H eq_refl) as Hl.
      destruct (ltb y o) eqn:E.
      + destruct (siftup0_spec o y t H) as (P & S). split; [split|split; auto].
        * right; left; auto.
        * intros w [<-|Hw]; auto. apply sw_asym; auto.
        * rewrite P. apply perm_swap.
      + split; [split|split; auto].
        * left; auto.
        * intros w [<-|Hw]; [apply sw_irrefl; auto|].
          apply (sw_le_trans ltb W) with y; auto.
  Qed.
End HeapqFacts.

Section HeapObj.
  Context {A : Type} (ltb eqb : A -> A -> bool).
  Hypothesis W : strict_weak ltb.

  Lemma heap_init_spec i : is_heap ltb (h_queue (heap_init ltb i)) /\ Permutation (h_queue (heap_init ltb i)) i.
  Proof.
    destruct i as [|x t]; simpl.
    - split; auto. intros d j Hj. simpl in Hj. lia.
    - destruct (heapify_spec ltb W (x :: t)); auto.
  Qed.

  Lemma list_remove_spec o l :
    match list_remove eqb o l with
    | Some l' => exists x, eqb x o = true /\ Permutation l (x :: l')
    | None => forall x, In x l -> eqb x o = false
    end.
  Proof.
    induction l as [|y l IH]; simpl; [intros x []|].
    destruct (eqb y o) eqn:E; [exists y; auto|].
    destruct (list_remove eqb o l) as [l'|].
    - destruct IH as (x & Hx & P). exists x. split; auto. rewrite P. apply perm_swap.
    - intros x [<-|Hx]; auto.
  Qed.

  Lemma hstep_refines h op : is_heap ltb (h_queue h) ->
    let (h', out) := hstep ltb eqb h op in
    is_heap ltb (h_queue h') /\ mstep ltb eqb (h_queue h) op (h_queue h') out /\
    match out with
    | Ok _ => h_version h' = (h_version h + 1)%Z
    | Err e => h' = h /\ e <> RuntimeError
    end.
  Proof.
    intros H. destruct op as [o| |i|o| |o|o]; simpl.
    - destruct (heappush_spec ltb W (h_queue h) o H) as (P & S). split; auto. split; auto. constructor; auto.
    - split; [intros d j Hj; simpl in Hj; lia|]. split; auto. constructor.
    - destruct (heapify_spec ltb W (h_queue h ++ i)) as (P & S). split; auto. split; auto. constructor.
      simpl. rewrite P. apply Permutation_app_comm.
    - pose proof (list_remove_spec o (h_queue h)) as R. destruct (list_remove eqb o (h_queue h)) as [l'|].
      + destruct R as (x & Hx & P). destruct (heapify_spec ltb W l') as (P' & S'). simpl.
        split; auto. split; auto. apply ms_remove with x; auto. rewrite P'; auto.
      + split; auto. split; [apply ms_remove_missing; auto|]. split; auto; discriminate.
    - pose proof (heappop_spec ltb W (h_queue h) H) as R. destruct (heappop ltb (h_queue h)) as [[x q]|]; simpl.
      + destruct R as (R1 & R2 & R3). split; auto. split; auto. constructor; auto.
      + split; auto. rewrite R. split; [constructor|]. split; auto; discriminate.
    - pose proof (heappushpop_spec ltb W (h_queue h) o H) as R. destruct (heappushpop ltb (h_queue h) o) as [x q]; simpl.
      destruct R as (R1 & R2 & R3). split; auto. split; auto. constructor; auto.
    - pose proof (heapreplace_spec ltb W (h_queue h) o H) as R. destruct (heapreplace ltb (h_queue h) o) as [[x q]|]; simpl.
      + destruct R as (R1 & (r & R2 & R2') & R3). split; auto. split; auto. apply ms_popleft_and_append with r; auto.
      + split; auto. rewrite R. split; [constructor|]. split; auto; discriminate.
  Qed.

  Lemma least_perm x m m' : Permutation m m' -> least ltb x m' -> least ltb x m.
  Proof.
    intros P [H1 H2]. split.
    - apply (Permutation_in _ (Permutation_sym P)); auto.
    - intros y Hy. apply H2, (Permutation_in _ P); auto.
  Qed.
  Lemma mstep_perm_l m m1 op m' out : Permutation m m1 -> mstep ltb eqb m1 op m' out -> mstep ltb eqb m op m' out.
  Proof.
    intros P H. inversion H; subst.
    - constructor. rewrite P; auto.
    - constructor.
    - constructor. rewrite P; auto.
    - econstructor; eauto. rewrite P; auto.
    - apply ms_remove_missing; [|rewrite P; auto]. intros x Hx. apply H0, (Permutation_in _ P); auto.
    - apply ms_popleft; [eapply least_perm; eauto | rewrite P; auto].
    - apply Permutation_sym, Permutation_nil in P; subst; constructor.
    - apply ms_append_and_popleft; [eapply least_perm; [|eauto]; auto | rewrite P; auto].
    - apply ms_popleft_and_append with r; auto; [eapply least_perm; eauto | rewrite P; auto].
    - apply Permutation_sym, Permutation_nil in P; subst; constructor.
  Qed.
  Lemma mrun_perm_l m m1 ops m' outs : Permutation m m1 -> mrun ltb eqb m1 ops m' outs -> mrun ltb eqb m ops m' outs.
  Proof.
    intros P H. destruct H.
    - constructor. rewrite P; auto.
    - econstructor; eauto. eapply mstep_perm_l; eauto.
  Qed.
  Lemma mrun_perm_r m ops m' m'' outs : mrun ltb eqb m ops m' outs -> Permutation m' m'' -> mrun ltb eqb m ops m'' outs.
  Proof.
    intros H P. induction H.
    - constructor. rewrite H; auto.
    - econstructor; eauto.
  Qed.

  Lemma hrun_refines ops : forall h, is_heap ltb (h_queue h) ->
    let (h', outs) := hrun ltb eqb h ops in
    is_heap ltb (h_queue h') /\ mrun ltb eqb (h_queue h) ops (h_queue h') outs.
  Proof.
    induction ops as [|op ops IH]; intros h H; simpl.
    - split; auto. constructor; auto.
    - pose proof (hstep_refines h op H) as R. destruct (hstep ltb eqb h op) as [h1 o].
      destruct R as (R1 & R2 & _). specialize (IH h1 R1). destruct (hrun ltb eqb h1 ops) as [h2 os].
      destruct IH as [I1 I2]. split; auto. econstructor; eauto.
  Qed.

  Lemma heap_queue_spec h : Permutation (heap_queue ltb h) (h_queue h) /\ ascending ltb (heap_queue ltb h).
  Proof. split; [apply sort_perm | apply sort_sorted; auto]. Qed.

  (** reachable heaps are heaps *)
  Lemma reach_heap init ops h outs : hrun ltb eqb (heap_init ltb init) ops = (h, outs) -> is_heap ltb (h_queue h).
  Proof.
    intros E. pose proof (hrun_refines ops (heap_init ltb init) (proj1 (heap_init_spec init))) as R.
    rewrite E in R. apply R.
  Qed.

  Lemma heap_multiset init ops h outs : hrun ltb eqb (heap_init ltb init) ops = (h, outs) ->
    mrun ltb eqb init ops (heap_queue ltb h) outs /\
    heap_len h = length (heap_queue ltb h) /\
    (heap_bool h = true <-> heap_queue ltb h <> []) /\
    (forall o, heap_contains eqb h o = true <-> exists x, In x (heap_queue ltb h) /\ eqb x o = true).
  Proof.
    intros E. destruct (heap_init_spec init) as [H0 P0].
    pose proof (hrun_refines ops (heap_init ltb init) H0) as R. rewrite E in R. destruct R as [R1 R2].
    destruct (heap_queue_spec h) as [P _].
    split; [|split; [|split]].
    - apply mrun_perm_r with (h_queue h); [|symmetry; auto].
      apply mrun_perm_l with (h_queue (heap_init ltb init)); [symmetry; auto|auto].
    - unfold heap_len. symmetry. apply Permutation_length; auto.
    - unfold heap_bool. destruct (h_queue h) as [|x t] eqn:Q.
      + split; [discriminate|]. intros K. apply Permutation_sym, Permutation_nil in P. congruence.
      + split; auto. intros _ K. rewrite K in P. apply Permutation_nil in P. discriminate.
    - intros o. unfold heap_contains. rewrite existsb_exists. split; intros (x & Hx & Hy); exists x; split; auto.
      + apply (Permutation_in _ (Permutation_sym P)); auto.
      + apply (Permutation_in _ P); auto.
  Qed.

  Lemma heap_first init ops h outs : hrun ltb eqb (heap_init ltb init) ops = (h, outs) ->
    match heap_getitem ltb h (IInt 0) with
    | Ok (One x) => least ltb x (heap_queue ltb h)
    | Ok (Many _) => False
    | Err e => e = IndexError /\ heap_queue ltb h = []
    end.
  Proof.
    intros E. pose proof (reach_heap _ _ _ _ E) as H. destruct (heap_queue_spec h) as [P _].
    unfold heap_getitem. simpl Z.eqb. cbv iota. unfold py_index. simpl (0 <? 0)%Z. cbv iota.
    destruct (h_queue h) as [|x t] eqn:Q; simpl.
    - split; auto. apply Permutation_sym, Permutation_nil in P. auto.
    - apply least_perm with (x :: t); auto. split; [left; auto|].
      apply (is_heap_least ltb W (x :: t) x t); auto.
  Qed.

  Lemma hstep_fail h op h' e : hstep ltb eqb h op = (h', Err e) -> h' = h.
  Proof.
    destruct op as [o| |i|o| |o|o]; simpl; intros H.
    - discriminate. - discriminate. - discriminate.
    - destruct (list_remove eqb o (h_queue h)); congruence.
    - destruct (heappop ltb (h_queue h)) as [[]|]; congruence.
    - destruct (heappushpop ltb (h_queue h) o); discriminate.
    - destruct (heapreplace ltb (h_queue h) o) as [[]|]; congruence.
  Qed.

  (** iteration *)
  Lemma drain_spec n : forall h q, length q = n -> is_heap ltb q ->
    exists L, ascending ltb L /\ Permutation L q /\
      forall f, drain ltb f h (mkIter q (h_version h)) = (firstn f L, if f <=? n then None else Some StopIteration).
  Proof.
    induction n as [|n IH]; intros h q Hn Hh.
    - destruct q; [|discriminate]. exists []. split; [constructor|]. split; auto.
      intros [|f]; simpl; auto. unfold iter_next. simpl. rewrite Z.eqb_refl. simpl. auto.
    - pose proof (heappop_spec ltb W q Hh) as R.
      destruct (heappop ltb q) as [[x q']|] eqn:E; [|subst; discriminate].
      destruct R as (R1 & R2 & R3).
      assert (Hl : length q' = n). { apply Permutation_length in R2. simpl in R2. lia. }
      destruct (IH h q' Hl R3) as (L & L1 & L2 & L3).
      exists (x :: L). split; [|split].
      + constructor; auto. rewrite Forall_forall. intros y Hy. apply R1.
        apply (Permutation_in _ (Permutation_sym R2)). right. apply (Permutation_in _ L2); auto.
      + rewrite L2. symmetry; auto.
      + intros [|f]; simpl; auto. unfold iter_next. simpl. rewrite Z.eqb_refl. simpl. rewrite E.
        rewrite L3. auto.
  Qed.

  Lemma heap_iteration init ops h outs : hrun ltb eqb (heap_init ltb init) ops = (h, outs) ->
    exists L, ascending ltb L /\ Permutation L (heap_queue ltb h) /\
      forall f, drain ltb f h (heap_iter h) = (firstn f L, if f <=? heap_len h then None else Some StopIteration).
  Proof.
    intros E. pose proof (reach_heap _ _ _ _ E) as H.
    destruct (drain_spec (heap_len h) h (h_queue h) eq_refl H) as (L & L1 & L2 & L3).
    exists L. split; auto. split; auto. rewrite L2. symmetry. apply heap_queue_spec.
  Qed.

  (** version counting *)
  Lemma evrun_version evs : forall h it h' it' outs,
    is_heap ltb (h_queue h) -> evrun ltb eqb h it evs = (h', it', outs) ->
    it_version it' = it_version it /\ is_heap ltb (h_queue h') /\
    (if some_mutation evs outs then h_version h < h_version h' else h' = h)%Z /\ (h_version h <= h_version h')%Z.
  Proof.
    induction evs as [|[op|] evs IH]; intros h it h' it' outs Hh E; simpl in E.
    - inversion E; subst. simpl. repeat split; auto. lia.
    - pose proof (hstep_refines h op Hh) as R. destruct (hstep ltb eqb h op) as [h1 o].
      destruct R as (R1 & R2 & R3).
      destruct (evrun ltb eqb h1 it evs) as [[h2 it2] os] eqn:E2. inversion E; subst.
      destruct (IH _ _ _ _ _ R1 E2) as (I1 & I2 & I3 & I4). split; auto. split; auto. simpl.
      destruct o as [a|e].
      + split; lia.
      + destruct R3 as [-> _]. split; auto.
    - destruct (iter_next ltb h it) as [it1 o] eqn:E1.
      destruct (evrun ltb eqb h it1 evs) as [[h2 it2] os] eqn:E2. inversion E; subst.
      destruct (IH _ _ _ _ _ Hh E2) as (I1 & I2 & I3 & I4). split.
      + rewrite I1. unfold iter_next in E1. destruct (negb _); [inversion E1; auto|].
        destruct (heappop ltb (it_copy it)) as [[]|]; inversion E1; auto.
      + split; auto.
  Qed.

  Lemma iterator_guard init ops h outs evs h' it' eouts : hrun ltb eqb (heap_init ltb init) ops = (h, outs) ->
    evrun ltb eqb h (heap_iter h) evs = (h', it', eouts) ->
    if some_mutation evs eouts
    then snd (iter_next ltb h' it') = Err RuntimeError
    else snd (iter_next ltb h' it') <> Err RuntimeError.
  Proof.
    intros E E2. pose proof (reach_heap _ _ _ _ E) as H.
    destruct (evrun_version _ _ _ _ _ _ H E2) as (I1 & I2 & I3 & I4). simpl in I1.
    unfold iter_next. rewrite I1. destruct (some_mutation evs eouts).
    - destruct (Z.eqb_spec (h_version h) (h_version h')); [lia|]. reflexivity.
    - subst h'. rewrite Z.eqb_refl. simpl. destruct (heappop ltb (it_copy it')) as [[]|]; simpl; discriminate.
  Qed.

  (** objects in memory are independent *)
  Definition w_ok (w : hworld A) : Prop :=
    NoDup (map o_ref (w_objs w)) /\ Forall (fun o => o_ref o < length (w_store w)) (w_objs w).
  Definition w_abs (w : hworld A) : list (heap A) := map (w_deref w) (w_objs w).

  Lemma w_abs_nth w i : nth_error (w_abs w) i = w_heap w i.
  Proof. unfold w_abs, w_heap. apply nth_error_map. Qed.

  Lemma map_upd {X Y} (f : X -> Y) l i x : map f (upd l i x) = upd (map f l) i (f x).
  Proof. revert i; induction l as [|a l IH]; intros [|i]; simpl; auto. f_equal; auto. Qed.

  Lemma wstep_ok w op : w_ok w -> w_ok (fst (wstep ltb eqb w op)) /\
    w_abs (fst (wstep ltb eqb w op)) = pstep ltb eqb (w_abs w) op.
  Proof.
    intros [N F].
    assert (Snoc : forall x, w_ok (mkWorld (w_objs w ++ [mkObj (length (w_store w)) 0]) (w_store w ++ [x])) /\
       w_abs (mkWorld (w_objs w ++ [mkObj (length (w_store w)) 0]) (w_store w ++ [x])) = w_abs w ++ [mkHeap x 0]).
    { intros x. split; [split|]; simpl.
      - rewrite map_app. simpl. apply NoDup_rev in N.
        rewrite <- (rev_involutive (map o_ref (w_objs w) ++ _)). apply NoDup_rev. rewrite rev_app_distr. simpl.
        constructor; auto. rewrite <- in_rev. intros K. apply in_map_iff in K. destruct K as (o & Ho & K).
        rewrite Forall_forall in F. apply F in K. lia.
      - rewrite app_length. simpl. apply Forall_app. split.
        + eapply Forall_impl; [|exact F]. simpl. intros; lia.
        + constructor; auto. simpl. lia.
      - unfold w_abs. simpl. rewrite map_app. f_equal.
        + apply map_ext_in. intros o Ho. rewrite Forall_forall in F. apply F in Ho.
          unfold w_deref. simpl. rewrite app_nth1; auto.
        + simpl. unfold w_deref. simpl. rewrite app_nth2, Nat.sub_diag by lia. auto. }
    destruct op as [i|i|i op]; simpl.
    - destruct (Snoc (h_queue (heap_init ltb i))) as [S1 S2]. split; auto. rewrite S2. f_equal.
      destruct i; auto.
    - rewrite w_abs_nth. unfold w_heap. destruct (nth_error (w_objs w) i) as [o|] eqn:E; simpl; [|split; auto; split; auto].
      destruct (Snoc (nth (o_ref o) (w_store w) [])) as [S1 S2]. split; auto.
    - rewrite w_abs_nth. unfold w_heap. destruct (nth_error (w_objs w) i) as [o|] eqn:E; simpl; [|split; auto; split; auto].
      destruct (hstep ltb eqb (w_deref w o) op) as [h out]. simpl.
      pose proof (nth_error_In _ _ E) as Hin. rewrite Forall_forall in F. pose proof (F _ Hin) as Hlt.
      assert (Hrefs : map o_ref (upd (w_objs w) i (mkObj (o_ref o) (h_version h))) = map o_ref (w_objs w)).
      { rewrite map_upd. simpl. clear -E. revert i E. induction (w_objs w) as [|a l IH]; intros [|i] E; simpl in *; try discriminate.
        - inversion E; auto.
        - f_equal. apply IH; auto. }
      split; [split|]; simpl.
      + rewrite Hrefs; auto.
      + rewrite upd_length. rewrite Forall_forall. intros a Ha. apply (in_map o_ref) in Ha. rewrite Hrefs in Ha.
        apply in_map_iff in Ha. destruct Ha as (b & Hb & Hb'). rewrite <- Hb. auto.
      + apply nth_error_ext. intros j. unfold w_abs. simpl w_objs.
        rewrite nth_error_map, !nth_error_upd, nth_error_map, map_length.
        assert (Hi : i < length (w_objs w)) by (apply nth_error_Some; congruence).
        destruct (Nat.eqb_spec i j) as [->|Hij].
        * destruct (Nat.ltb_spec j (length (w_objs w))); [|lia]. simpl. f_equal. unfold w_deref. simpl.
          rewrite nth_upd_same by auto. destruct h; auto.
        * destruct (nth_error (w_objs w) j) as [o'|] eqn:E'; simpl; auto. f_equal. unfold w_deref. simpl.
          rewrite nth_upd_other; auto.
          intros Heq. apply Hij.
          rewrite NoDup_nth_error in N. apply N; [rewrite map_length; auto|].
          rewrite !nth_error_map, E, E'. simpl. congruence.
  Qed.

  Lemma wrun_ok ops : forall w, w_ok w -> w_ok (wrun ltb eqb w ops) /\
    w_abs (wrun ltb eqb w ops) = fold_left (pstep ltb eqb) ops (w_abs w).
  Proof.
    induction ops as [|op ops IH]; intros w H; simpl; auto.
    destruct (wstep_ok w op H) as [H1 H2]. destruct (IH _ H1) as [I1 I2]. split; auto.
    unfold wrun in *. simpl. rewrite I2, H2. auto.
  Qed.
  Lemma heaps_independent ops i :
    w_heap (wrun ltb eqb wempty ops) i = nth_error (fold_left (pstep ltb eqb) ops []) i.
  Proof.
    rewrite <- w_abs_nth. destruct (wrun_ok ops wempty) as [_ H].
    - split; constructor.
    - rewrite H. auto.
  Qed.
End HeapObj.

Section HeapTotal.
  Context {A : Type} (ltb eqb : A -> A -> bool).
  Hypothesis T : strict_total ltb.

  Lemma iteration_is_queue init ops h outs : hrun ltb eqb (heap_init ltb init) ops = (h, outs) ->
    drain ltb (S (heap_len h)) h (heap_iter h) = (heap_queue ltb h, Some StopIteration).
  Proof.
    intros E. destruct T as [W _]. destruct (heap_iteration ltb eqb W _ _ _ _ E) as (L & L1 & L2 & L3).
    assert (L = heap_queue ltb h) as <-.
    { apply (ascending_unique ltb T); auto. apply heap_queue_spec; auto. }
    rewrite L3. assert (Hl : heap_len h = length L).
    { pose proof (heap_multiset ltb eqb W _ _ _ _ E) as (_ & K & _). rewrite K. symmetry; apply Permutation_length; auto. }
    rewrite firstn_all2 by lia. destruct (Nat.leb_spec (S (heap_len h)) (heap_len h)); [lia|]. auto.
  Qed.

  Hypothesis EQ : decides_eq eqb.
  Lemma list_eqb_eq l1 : forall l2, list_eqb eqb l1 l2 = true <-> l1 = l2.
  Proof.
    induction l1 as [|x l1 IH]; intros [|y l2]; simpl; split; intros H; auto; try discriminate.
    - apply andb_prop in H. destruct H as [H1 H2]. apply EQ in H1. apply IH in H2. congruence.
    - inversion H; subst. apply andb_true_intro. split; [apply EQ; auto | apply IH; auto].
  Qed.
  Lemma heap_eq_multiset h1 h2 : heap_eq ltb eqb h1 h2 = true <-> Permutation (heap_queue ltb h1) (heap_queue ltb h2).
  Proof.
    unfold heap_eq. rewrite list_eqb_eq. split; [intros ->; auto|].
    apply (ascending_unique ltb T); apply sort_sorted, T.
  Qed.

  (** indexing *)
  Lemma nsmallest_firstn n q : nsmallest ltb n q = firstn (Z.to_nat n) (sort ltb q). Proof. auto. Qed.
  Lemma rev_nlargest n q : rev (nlargest ltb n q) = skipn (length q - Z.to_nat n) (sort ltb q).
  Proof.
    unfold nlargest. rewrite (sort_rev_eq ltb T).
    rewrite firstn_rev, rev_involutive. f_equal. rewrite (Permutation_length (sort_perm ltb q)). auto.
  Qed.

  Lemma getitem_slice h s : heap_getitem ltb h (ISlice s) = rmap Many (py_slice (heap_queue ltb h) s).
  Proof.
    unfold heap_getitem, heap_queue.
    set (u := match sl_step s with None => true | Some k => (k =? 1)%Z end).
    destruct u eqn:U; auto.
    assert (Hs : sl_step s = None \/ sl_step s = Some 1%Z).
    { unfold u in U. destruct (sl_step s) as [k|]; auto. right. f_equal. lia. }
    pose proof (py_slice_unit (sort ltb (h_queue h)) s Hs) as K. cbv zeta in K. rewrite K.
    assert (HL : length (sort ltb (h_queue h)) = length (h_queue h)) by apply Permutation_length, sort_perm.
    set (a := match sl_start s with None => 0%Z | Some v => v end).
    set (b := match sl_stop s with None => Z.of_nat (length (h_queue h)) | Some v => v end).
    set (a' := if (a <? 0)%Z then _ else a). set (b' := if (b <? 0)%Z then _ else b).
    rewrite HL in K |- *.
    set (sa := slice_start _ _ _) in *. set (sb := slice_stop _ _ _) in *.
    assert (Hsa : sa = Z.max 0 (Z.min a' (Z.of_nat (length (h_queue h))))).
    { unfold sa, slice_start, a', a. simpl. destruct (sl_start s) as [v|]; simpl; [destruct (v <? 0)%Z eqn:?|]; lia. }
    assert (Hsb : sb = Z.max 0 (Z.min b' (Z.of_nat (length (h_queue h))))).
    { unfold sb, slice_stop, b', b. simpl. destruct (sl_stop s) as [v|]; simpl; [destruct (v <? 0)%Z eqn:?|destruct (Z.of_nat (length (h_queue h)) <? 0)%Z eqn:?]; lia. }
    destruct (a' =? 0)%Z eqn:Ea.
    - simpl. do 2 f_equal. unfold nsmallest.
      replace (Z.to_nat sa) with 0 by lia. simpl skipn.
      destruct (Z.leb_spec b' (Z.of_nat (length (h_queue h)))).
      + f_equal. lia.
      + rewrite !firstn_all2; auto; lia.
    - destruct (b' =? Z.of_nat (length (h_queue h)))%Z eqn:Eb.
      + simpl. do 2 f_equal. rewrite rev_nlargest.
        rewrite firstn_all2 by (rewrite skipn_length; lia).
        destruct (Z.leb_spec a' (Z.of_nat (length (h_queue h)))).
        * f_equal. lia.
        * rewrite !skipn_all2; auto; lia.
      + reflexivity.
  Qed.

  Lemma py_index_nonneg {X} (l : list X) i : (0 <= i)%Z ->
    py_index l i = match nth_error l (Z.to_nat i) with Some x => Ok x | None => Err IndexError end.
  Proof.
    intros H. unfold py_index. destruct (i <? 0)%Z eqn:E; [lia|].
    destruct ((0 <=? i)%Z && (i <? Z.of_nat (length l))%Z)%bool eqn:E2; auto.
    destruct (nth_error l (Z.to_nat i)) eqn:E3; auto.
    assert (Z.to_nat i < length l) by (apply nth_error_Some; congruence). lia.
  Qed.

  Lemma fold_max_spec t : forall x, let m := fold_left (fun m y => if ltb m y then y else m) t x in
    In m (x :: t) /\ forall y, In y (x :: t) -> ltb m y = false.
  Proof.
    destruct T as [W _].
    induction t as [|z t IH]; intros x; simpl.
    - split; auto. intros y [<-|[]]. apply sw_irrefl; auto.
    - destruct (IH (if ltb x z then z else x)) as [I1 I2]. simpl in I1, I2.
      set (m := fold_left _ _ _) in *. split.
      + destruct I1 as [I1|I1]; auto. destruct (ltb x z); auto.
      + intros y [<-|[<-|Hy]]; auto.
        * destruct (ltb x z) eqn:E; [|apply I2; auto].
          apply (sw_le_trans ltb W) with z; auto. apply sw_asym; auto.
        * destruct (ltb x z) eqn:E; [apply I2; auto|].
          apply (sw_le_trans ltb W) with x; auto.
  Qed.

  Lemma getitem_int init ops h outs i : hrun ltb eqb (heap_init ltb init) ops = (h, outs) ->
    (i <= -10 \/ i = -1 /\ heap_len h <> 0%nat \/ 0 <= i)%Z ->
    heap_getitem ltb h (IInt i) = rmap One (py_index (heap_queue ltb h) i).
  Proof.
    intros E Hi. pose proof T as [W Tt].
    assert (HL : length (sort ltb (h_queue h)) = length (h_queue h)) by apply Permutation_length, sort_perm.
    destruct (Z.eq_dec i 0) as [->|H0].
    { pose proof (heap_first ltb eqb W _ _ _ _ E) as F.
      assert (G : forall y, heap_getitem ltb h (IInt 0) = rmap One y -> y = py_index (heap_queue ltb h) 0 -> heap_getitem ltb h (IInt 0) = rmap One (py_index (heap_queue ltb h) 0)) by (intros; subst; auto).
      unfold heap_queue in *. unfold heap_getitem in *. simpl Z.eqb in *. cbv iota in *.
      rewrite py_index_nonneg in * by lia. rewrite (py_index_nonneg (sort ltb (h_queue h))) by lia. change (Z.to_nat 0) with 0 in *.
      destruct (h_queue h) as [|x t] eqn:Q; auto. cbn [nth_error rmap] in F |- *.
      destruct (sort ltb (x :: t)) as [|y u] eqn:S; [discriminate|]. cbn [nth_error rmap]. do 2 f_equal.
      destruct F as [F1 F2]. pose proof (sort_sorted ltb W (x :: t)) as A1. rewrite S in A1. inversion A1; subst.
      destruct F1 as [F1|F1]; auto. apply Tt; [|apply F2; left; auto].
      rewrite Forall_forall in H2. auto. }
    unfold heap_getitem. destruct (i =? 0)%Z eqn:E0; [lia|].
    destruct (i =? -1)%Z eqn:E1.
    { assert (i = -1)%Z as -> by lia. destruct Hi as [Hi|[[_ Hi]|Hi]]; try lia.
      unfold heap_len in Hi. destruct (h_queue h) as [|x t] eqn:Q; [simpl in Hi; lia|].
      unfold py_max. simpl rmap.
      destruct (fold_max_spec t x) as [M1 M2]. set (m := fold_left _ _ _) in *.
      unfold heap_queue. rewrite Q.
      pose proof (sort_sorted ltb W (x :: t)) as A1. pose proof (sort_perm ltb (x :: t)) as P1.
      set (s := sort ltb (x :: t)) in *.
      assert (Hs : exists s' z, s = s' ++ [z]).
      { destruct (rev s) as [|z r] eqn:R.
        - apply (f_equal (@rev A)) in R. rewrite rev_involutive in R. simpl in R. rewrite R in HL. discriminate.
        - exists (rev r), z. rewrite <- (rev_involutive s), R. auto. }
      destruct Hs as (s' & z & Hs). rewrite Hs in *.
      unfold py_index. change (-1 <? 0)%Z with true. cbv iota zeta. rewrite app_length. simpl length.
      replace (-1 + Z.of_nat (length s' + 1))%Z with (Z.of_nat (length s')) by lia.
      destruct ((0 <=? Z.of_nat (length s'))%Z && (Z.of_nat (length s') <? Z.of_nat (length s' + 1))%Z)%bool eqn:Eb; [|lia].
      rewrite Nat2Z.id, nth_error_app2, Nat.sub_diag by lia. simpl. do 2 f_equal.
      apply Tt.
      - apply M2. apply (Permutation_in _ P1). apply in_or_app; right; left; auto.
      - apply (Permutation_in _ (Permutation_sym P1)) in M1. apply in_app_or in M1. destruct M1 as [M1|[<-|[]]]; [|apply sw_irrefl; auto].
        clear -A1 M1. induction s' as [|w s' IH]; [destruct M1|]. simpl in A1. inversion A1; subst.
        destruct M1 as [<-|M1]; auto. rewrite Forall_forall in H2. apply H2. apply in_or_app; right; left; auto. }
    destruct ((0 <? i) && (i <? 10))%Z%bool eqn:E2.
    { unfold heap_queue. rewrite nsmallest_firstn. f_equal. rewrite !py_index_nonneg by lia.
      replace (Z.to_nat (i + 1)) with (S (Z.to_nat i)) by lia.
      set (l := sort ltb (h_queue h)). clearbody l. generalize (Z.to_nat i). clear. intros n.
      replace (nth_error (firstn (S n) l) n) with (nth_error l n); auto.
      revert l; induction n as [|n IH]; intros [|x l]; auto. simpl. rewrite IH. auto. }
    destruct ((-10 <? i) && (i <? 0))%Z%bool eqn:E3; [lia|]. reflexivity.
  Qed.
End HeapTotal.

Section HeapNeg.
  Context {A : Type} (ltb : A -> A -> bool).
  Hypothesis T : strict_total ltb.
  (** what heap[i] really returns for -9 <= i <= -2 *)
  Lemma getitem_neg h i : (-10 < i < -1)%Z ->
    heap_getitem ltb h (IInt i) =
      (if Z.of_nat (heap_len h) <? - i then Err IndexError
       else rmap One (py_index (heap_queue ltb h) (if Z.of_nat (heap_len h) =? - i then -1 else -2)))%Z.
  Proof.
    intros Hi. unfold heap_getitem.
    destruct (i =? 0)%Z eqn:E0; [lia|]. destruct (i =? -1)%Z eqn:E1; [lia|].
    destruct ((0 <? i) && (i <? 10))%Z%bool eqn:E2; [lia|].
    destruct ((-10 <? i) && (i <? 0))%Z%bool eqn:E3; [|lia].
    unfold nlargest. rewrite (sort_rev_eq ltb T). unfold heap_queue, heap_len.
    assert (HL : length (sort ltb (h_queue h)) = length (h_queue h)) by apply Permutation_length, sort_perm.
    rewrite <- HL. generalize (sort ltb (h_queue h)). intros l. clear HL E0 E1 E2 E3 T.
    unfold py_index. rewrite firstn_length, rev_length.
    destruct (i <? 0)%Z eqn:Ei; [|lia].
    assert (Hr : forall k, k < length l -> k < Z.to_nat (- i + 1) ->
       nth_error (firstn (Z.to_nat (- i + 1)) (rev l)) k = nth_error l (length l - 1 - k)).
    { intros k Hk Hk'. destruct l as [|d l']; [simpl in Hk; lia|]. set (l := d :: l') in *.
      rewrite !(nth_error_nth' _ d) by (rewrite ?firstn_length, ?rev_length; lia).
      f_equal. rewrite <- (firstn_skipn (Z.to_nat (- i + 1)) (rev l)) at 2 || idtac.
      assert (Hn : nth k (firstn (Z.to_nat (- i + 1)) (rev l)) d = nth k (rev l) d).
      { rewrite <- (firstn_skipn (Z.to_nat (- i + 1)) (rev l)) at 2.
        rewrite app_nth1; auto. rewrite firstn_length, rev_length. lia. }
      rewrite Hn, rev_nth by lia. f_equal. lia. }
    destruct (Z.ltb_spec (Z.of_nat (length l)) (- i)) as [H1|H1].
    - destruct ((0 <=? i + Z.of_nat (Nat.min (Z.to_nat (- i + 1)) (length l)))%Z && _)%bool eqn:E; [lia|]. auto.
    - destruct ((0 <=? i + Z.of_nat (Nat.min (Z.to_nat (- i + 1)) (length l)))%Z && _)%bool eqn:E; [|lia].
      destruct (Z.eqb_spec (Z.of_nat (length l)) (- i)) as [H2|H2].
      + change (-1 <? 0)%Z with true. cbv iota zeta.
        destruct ((0 <=? -1 + Z.of_nat (length l))%Z && _)%bool eqn:E'; [|lia].
        rewrite Hr by lia. do 3 f_equal; try lia.
        replace (length l - 1 - Z.to_nat (i + Z.of_nat (Nat.min (Z.to_nat (- i + 1)) (length l))))
          with (Z.to_nat (-1 + Z.of_nat (length l))) by lia. auto.
      + change (-2 <? 0)%Z with true. cbv iota zeta.
        destruct ((0 <=? -2 + Z.of_nat (length l))%Z && _)%bool eqn:E'; [|lia].
        rewrite Hr by lia.
        replace (length l - 1 - Z.to_nat (i + Z.of_nat (Nat.min (Z.to_nat (- i + 1)) (length l))))
          with (Z.to_nat (-2 + Z.of_nat (length l))) by lia. auto.
  Qed.
End HeapNeg.
