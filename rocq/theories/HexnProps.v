(** C115: Heap when comparisons raise. *)
From Verif Require Import PyBaseProof HeapModel HeapSpec HeapProof HexnModel HexnSpec.
Require Import ZifyBool ZifyNat.
Ltac Zify.zify_post_hook ::= Z.div_mod_to_equations.

Section Contents.
  Context {A : Type} (lt eq : nat -> A -> A -> result bool) (order : nat -> list nat).
  Definition ended_ok (l : list A) (x : @ended A) : Prop :=
    Permutation (fst (fst x)) l /\ match snd x with Ok _ => True | Err e => exists n a b, lt n a b = Err e end.
  Lemma swap_perm (l : list A) i j (x : A) : i <> j -> i < length l -> j < length l -> nth_error l i = Some x -> Permutation (swap l i j x) l /\ nth_error (swap l i j x) j = Some x.
  Proof.
    intros D I J E. unfold swap. assert (nth i l x = x) by (apply nth_error_nth with (d := x) in E; auto). split.
    - etransitivity; [apply upd_move_perm; auto|]. replace x with (nth i l x) at 1 by auto. rewrite upd_nth. reflexivity.
    - rewrite nth_error_upd, Nat.eqb_refl, upd_length. destruct (Nat.ltb_spec j (length l)); auto; lia.
  Qed.
  Lemma swap_length l i j (x : A) : length (swap l i j x) = length l.
  Proof. unfold swap. now rewrite !upd_length. Qed.
  Lemma siftdown_ok fuel : forall l x s p n, nth_error l p = Some x -> ended_ok l (siftdown_c lt fuel l x s p n).
  Proof.
    induction fuel as [|f IH]; intros l x s p n E; cbn [siftdown_c]; [split; cbn; auto|]. destruct (Nat.ltb_spec s p) as [S|S]; [|split; cbn; auto].
    destruct (lt n x (nth ((p - 1) / 2) l x)) as [[|]|e] eqn:L; [|split; cbn; auto|split; cbn; eauto].
    assert (P : p < length l) by (apply nth_error_Some; congruence).
    destruct (swap_perm l p ((p - 1) / 2) x ltac:(lia) P ltac:(lia) E) as [W W']. destruct (IH _ x s ((p - 1) / 2) (Datatypes.S n) W') as [Q R]. split; auto. now rewrite Q.
  Qed.
  Lemma siftup_ok fuel : forall l x s p n, nth_error l p = Some x -> ended_ok l (siftup_c lt fuel l x s p n).
  Proof.
    induction fuel as [|f IH]; intros l x s p n E; cbn [siftup_c]; [now apply siftdown_ok|]. destruct (Nat.ltb_spec p (length l / 2)) as [S|S]; [|now apply siftdown_ok].
    assert (P : p < length l) by (apply nth_error_Some; congruence).
    assert (K : forall c m, p <> c -> c < length l -> ended_ok l (siftup_c lt f (swap l p c x) x s c m)).
    { intros c m D C. destruct (swap_perm l p c x D P C E) as [W W']. destruct (IH _ x s c m W') as [Q R]. split; auto. now rewrite Q. }
    cbn zeta. destruct (Nat.ltb_spec (2 * p + 1 + 1) (length l)) as [T|T]; [|apply K; lia].
    destruct (lt n _ _) as [b|e] eqn:L; [|split; cbn; eauto]. destruct b; apply K; lia.
  Qed.
  Lemma siftup_at_ok l p n : ended_ok l (siftup_at lt l p n).
  Proof. unfold siftup_at. destruct (nth_error l p) as [x|] eqn:E; [now apply siftup_ok|split; cbn; auto]. Qed.
  Lemma siftups_ok ps : forall l n, ended_ok l (siftups lt ps l n).
  Proof.
    induction ps as [|p ps IH]; intros l n; cbn [siftups]; [split; cbn; auto|]. pose proof (siftup_at_ok l p n) as [Q R]. destruct (siftup_at lt l p n) as [[l' n'] [u|e]]; cbn [fst snd] in *; [|split; auto].
    destruct (IH l' n') as [Q' R']. split; auto. now rewrite Q'.
  Qed.
  Definition finished_ok (before : list A) (x : (list A * nat) * result A) : Prop :=
    exists v, Permutation before (v :: fst (fst x)) /\ match snd x with Ok w => w = v | Err e => exists n a b, lt n a b = Err e end.
  Lemma replaced_ok l x r n : finished_ok (r :: x :: l) (let '(l', n', t) := siftup_at lt (x :: l) 0 n in (l', n', rmap (fun _ => r) t)).
  Proof.
    destruct (siftup_at_ok (x :: l) 0 n) as [Q R]. destruct (siftup_at lt (x :: l) 0 n) as [[l' n'] t]. exists r. cbn [fst snd] in *. rewrite Q. split; auto. destruct t; cbn; auto.
  Qed.
  Lemma heappop_ok l n : l = [] \/ finished_ok l (heappop_c lt l n).
  Proof.
    unfold heappop_c. destruct (rev l) as [|z r] eqn:E; [left; apply (f_equal (@rev A)) in E; rewrite rev_involutive in E; auto|]. right.
    assert (El : l = rev r ++ [z]) by (rewrite <- (rev_involutive l), E; reflexivity). destruct (rev r) as [|y t]; subst l.
    - exists z. cbn. auto.
    - destruct (replaced_ok t z y n) as (v & Q & R). exists v. split; auto. rewrite <- Q. cbn [app]. constructor. apply Permutation_sym, Permutation_cons_append.
  Qed.
  Lemma remove_ok o l : forall n, let '(q, n', r) := list_remove_c eq o l n in
    match r with Ok _ => exists x m, eq m x o = Ok true /\ Permutation l (x :: q) | Err e => q = l /\ (e = ValueError \/ exists n a b, eq n a b = Err e) end.
  Proof.
    induction l as [|x l IH]; intros n; cbn [list_remove_c]; [auto|]. destruct (eq n x o) as [[|]|e] eqn:E.
    - exists x, n. auto.
    - specialize (IH (S n)). destruct (list_remove_c eq o l (S n)) as [[q n'] [u|e]].
      + destruct IH as (y & m & E' & P). exists y, m. split; auto. rewrite P. apply perm_swap.
      + destruct IH as [-> H]. auto.
    - split; eauto.
  Qed.

  (** Whatever comparisons say or raise: every call leaves the values it should. *)
  Theorem C115_contents h n op : let '(h', _, r) := xstep lt eq order h n op in
    holds lt eq (h_queue h) op (h_queue h') r.
  Proof.
    assert (FC : forall e : exn, (exists n a b, lt n a b = Err e) -> from_comparison lt eq e) by (intros e (k & a & b & E); exists k, a, b; auto).
    destruct op as [o| |i [e|]|o| |o|o]; cbn [xstep].
    - unfold heappush_c. assert (N : nth_error (h_queue h ++ [o]) (length (h_queue h)) = Some o) by (rewrite nth_error_app2, Nat.sub_diag by lia; auto).
      pose proof (siftdown_ok (length (h_queue h)) _ o 0 _ n N) as [Q R]. destruct (siftdown_c lt _ _ _ _ _ _) as [[q n'] [u|e]]; cbn in *; apply x_append; eauto; rewrite Q; apply Permutation_sym, Permutation_cons_append.
    - cbn. constructor.
    - cbn. constructor. apply Permutation_app_comm.
    - unfold heapify_c. pose proof (siftups_ok (order (length (h_queue h ++ i))) (h_queue h ++ i) n) as [Q R]. destruct (siftups lt _ _ _) as [[q n'] [u|e]]; cbn in *; apply x_extend; eauto; rewrite Q; apply Permutation_app_comm.
    - pose proof (remove_ok o (h_queue h) n) as X. destruct (list_remove_c eq o (h_queue h) n) as [[q n'] [u|e]].
      + destruct X as (x & m & E & P). unfold heapify_c. pose proof (siftups_ok (order (length q)) q n') as [Q R]. destruct (siftups lt _ _ _) as [[q' n2] [u'|e]]; cbn in *; eapply x_remove; eauto; rewrite Q; auto.
      + destruct X as [-> X]. cbn. apply x_not_removed; auto. destruct X as [X|(k & a & b & X)]; [auto|right; exists k, a, b; auto].
    - destruct (heappop_ok (h_queue h) n) as [E|(v & P & R)]; [rewrite E; cbn; constructor|]. destruct (heappop_c lt (h_queue h) n) as [[q n'] [w|e]]; cbn in *; [subst w; now constructor|eapply x_popleft_lost; eauto].
    - unfold heappushpop_c. destruct (h_queue h) as [|top t] eqn:E; [cbn; now constructor|]. destruct (lt n top o) as [[|]|e] eqn:L.
      + destruct (replaced_ok t o top (S n)) as (v & P & R). destruct (siftup_at lt (o :: t) 0 (S n)) as [[q n'] r]. cbn [fst snd] in *. destruct r as [u|e]; cbn in *; rewrite perm_swap in P; [subst v; now constructor|eapply x_append_and_popleft_lost; eauto].
      + cbn. now constructor.
      + cbn. eapply x_append_and_popleft_lost; [reflexivity|eauto].
    - unfold heapreplace_c. destruct (h_queue h) as [|top t] eqn:E; [cbn; constructor|]. destruct (siftup_at_ok (o :: t) 0 n) as [Q R]. destruct (siftup_at lt (o :: t) 0 n) as [[q n'] [u|e]]; cbn in *.
      + apply x_popleft_and_append; [rewrite Q; apply perm_swap|left; auto].
      + eapply x_popleft_and_append_lost; [rewrite Q; apply perm_swap|left; auto|eauto].
  Qed.
  (** The version changes exactly if the call succeeds, so iterators do not notice a call that raised. *)
  Theorem C115_version h n op : let '(h', _, r) := xstep lt eq order h n op in
    h_version h' = match r with Ok _ => (h_version h + 1)%Z | Err _ => h_version h end.
  Proof.
    assert (F : forall B f (x : list A * nat * result B), let '(h', _, r) := finish h f x in h_version h' = match r with Ok _ => (h_version h + 1)%Z | Err _ => h_version h end) by (intros B f [[q n'] [v|e]]; reflexivity).
    destruct op as [o| |i [e|]|o| |o|o]; cbn [xstep]; try apply F. destruct (list_remove_c eq o (h_queue h) n) as [[q n'] [u|e]]; apply F.
  Qed.
  (** Histories of calls, each of which may raise: without clear and remove, the values handed over are those in the heap, those returned, and at most
      one lost for every popping call that raised. *)
  Theorem C115_conservation ops : forall h n h' n' rs, xrun lt eq order h n ops = (h', n', rs) -> existsb takes_out ops = false ->
    exists lost, Permutation (h_queue h ++ flat_map handed ops) (h_queue h' ++ flat_map given_back rs ++ lost) /\ length lost <= failed_pops (combine ops rs).
  Proof.
    induction ops as [|op ops IH]; intros h n h' n' rs E T; cbn [xrun] in E; [injection E as <- <- <-; exists []; cbn; rewrite !app_nil_r; auto|].
    pose proof (C115_contents h n op) as C. destruct (xstep lt eq order h n op) as [[h1 n1] r]. destruct (xrun lt eq order h1 n1 ops) as [[h2 n2] rs'] eqn:X. injection E as <- <- <-.
    cbn [existsb] in T. apply orb_false_iff in T as [T1 T2]. destruct (IH _ _ _ _ _ X T2) as (lost & P & L).
    assert (K : exists l1, Permutation (h_queue h ++ handed op) (h_queue h1 ++ given_back r ++ l1) /\ length l1 <= if pops op && match r with Err _ => true | _ => false end then 1 else 0).
    { assert (PC : forall (a : list A) x, Permutation (a ++ [x]) (x :: a)) by (intros; apply Permutation_sym, Permutation_cons_append).
      inversion C; subst; cbn [handed given_back pops andb takes_out] in *; try discriminate;
        repeat match goal with H : _ = Ok None \/ _ |- _ => destruct H as [->|(? & -> & _)] end; cbn [app]; rewrite ?app_nil_r.
      all: try (exists []; rewrite ?app_nil_r; cbn [app length]; split; [|lia]; solve [
        match goal with H : Permutation _ (?o :: ?m) |- Permutation (?m ++ [?o]) _ => rewrite H; apply PC end
      | match goal with H : Permutation _ (?i ++ ?m) |- Permutation (?m ++ ?i) _ => rewrite H; apply Permutation_app_comm end
      | match goal with H : Permutation ?m (?x :: ?m') |- Permutation ?m (?m' ++ [?x]) => rewrite H; symmetry; apply PC end
      | match goal with H : Permutation (?o :: ?m) (?x :: ?m') |- Permutation (?m ++ [?o]) (?m' ++ [?x]) => rewrite !PC; exact H end
      | reflexivity ]).
      - exists [x]. split; [rewrite PC; auto|auto].
      - exists [x]. split; [rewrite !PC; auto|auto].
      - exists [x]. split; [rewrite !PC; auto|auto].
      - exists [o]. split; auto. }
    destruct K as (l1 & P1 & L1). exists (l1 ++ lost). cbn [flat_map]. split.
    - rewrite app_assoc, P1, <- app_assoc. rewrite (Permutation_app_comm (given_back r ++ l1)), app_assoc, P, <- !app_assoc. apply Permutation_app_head.
      rewrite (app_assoc (flat_map given_back rs')). rewrite Permutation_app_comm, <- !app_assoc. apply Permutation_app_head.
      rewrite (app_assoc l1), (app_assoc _ l1). rewrite (Permutation_app_comm l1). now rewrite <- !app_assoc.
    - rewrite app_length. unfold failed_pops in *. cbn [combine filter fst snd]. destruct (pops op && _); cbn [length]; lia.
  Qed.
End Contents.

Section Agreement.
  (** comparisons that, when they do not raise, say what ltb and eqb say *)
  Context {A : Type} (lt eq : nat -> A -> A -> result bool) (ltb eqb : A -> A -> bool).
  Hypothesis LT : forall n x y b, lt n x y = Ok b -> b = ltb x y.
  Hypothesis EQ : forall n x y b, eq n x y = Ok b -> b = eqb x y.
  Definition downward (n : nat) : list nat := rev (seq 0 (n / 2)).

  Lemma siftdown_agrees fuel : forall heap x s p n l n' u, p < length heap -> siftdown_c lt fuel (upd heap p x) x s p n = (l, n', Ok u) -> l = siftdown_loop ltb fuel heap x s p.
  Proof.
    induction fuel as [|f IH]; intros heap x s p n l n' u P E; cbn [siftdown_c siftdown_loop] in *; [injection E as <- _ _; auto|].
    destruct (Nat.ltb_spec s p) as [S|S]; [|injection E as <- _ _; auto]. cbn zeta. rewrite nth_upd_other in E by lia.
    destruct (lt n x _) as [b|e] eqn:L; [|discriminate]. apply LT in L. rewrite <- L. destruct b; [|injection E as <- _ _; auto].
    unfold swap in E. rewrite nth_upd_other in E by lia. rewrite upd_upd_same in E. eapply IH; [|exact E]. rewrite upd_length. lia.
  Qed.
  Lemma siftup_agrees fuel : forall heap x s p n l n' u, p < length heap -> siftup_c lt fuel (upd heap p x) x s p n = (l, n', Ok u) ->
    let (h, q) := siftup_loop ltb fuel heap x (length heap) p in l = siftdown ltb (upd h q x) s q.
  Proof.
    assert (D : forall heap x s p n l n' u, p < length heap -> siftdown_c lt p (upd heap p x) x s p n = (l, n', Ok u) -> l = siftdown ltb (upd heap p x) s p).
    { intros heap x s p n l n' u P E. unfold siftdown. rewrite nth_error_upd, Nat.eqb_refl. destruct (Nat.ltb_spec p (length heap)); [|lia].
      eapply siftdown_agrees; [now rewrite upd_length|]. rewrite upd_upd_same. exact E. }
    induction fuel as [|f IH]; intros heap x s p n l n' u P E; cbn [siftup_c siftup_loop] in *; [eapply D; eauto|]. rewrite upd_length in E.
    replace (p <? length heap / 2) with (2 * p + 1 <? length heap) in E by lia. destruct (Nat.ltb_spec (2 * p + 1) (length heap)) as [S|S]; [|eapply D; eauto].
    assert (K : forall c m, p < c < length heap -> siftup_c lt f (swap (upd heap p x) p c x) x s c m = (l, n', Ok u) ->
      let (h, q) := siftup_loop ltb f (upd heap p (nth c heap x)) x (length heap) c in l = siftdown ltb (upd h q x) s q).
    { intros c m C E'. unfold swap in E'. rewrite nth_upd_other in E' by lia. rewrite upd_upd_same in E'. specialize (IH (upd heap p (nth c heap x)) x s c m l n' u). rewrite upd_length in IH. apply IH; auto. lia. }
    cbn zeta in E. destruct (Nat.ltb_spec (2 * p + 1 + 1) (length heap)) as [T|T]; cbn [andb].
    - rewrite !nth_upd_other in E by lia. destruct (lt n _ _) as [b|e] eqn:L; [|discriminate]. apply LT in L. rewrite <- L. destruct b; cbn [negb]; eapply K; eauto; lia.
    - eapply K; eauto. lia.
  Qed.
  Lemma siftup_at_agrees l p n l' n' u : siftup_at lt l p n = (l', n', Ok u) -> l' = siftup ltb l p.
  Proof.
    unfold siftup_at, siftup. destruct (nth_error l p) as [x|] eqn:E; [|intros [= <- _ _]; auto]. intros H.
    assert (P : p < length l) by (apply nth_error_Some; congruence). assert (X : upd l p x = l) by (rewrite <- (upd_nth l p x) at 2; f_equal; symmetry; now apply nth_error_nth).
    pose proof (siftup_agrees (length l) l x p p n l' n' u P) as G. rewrite X in G. specialize (G H). destruct (siftup_loop ltb _ _ _ _ _). exact G.
  Qed.
  Lemma siftups_agree i : forall l n l' n' u, siftups lt (rev (seq 0 i)) l n = (l', n', Ok u) -> l' = heapify_loop ltb i l.
  Proof.
    induction i as [|i IH]; intros l n l' n' u E; cbn [heapify_loop].
    - cbn in E. congruence.
    - rewrite seq_S, rev_app_distr in E. cbn [rev app siftups Nat.add] in E. destruct (siftup_at lt l i n) as [[l1 n1] [v|e]] eqn:X; [|discriminate]. apply siftup_at_agrees in X. subst l1. eauto.
  Qed.
  Lemma heapify_agrees l n l' n' u : heapify_c lt downward l n = (l', n', Ok u) -> l' = heapify ltb l.
  Proof. apply siftups_agree. Qed.
  Lemma heappop_agrees l n l' n' x : heappop_c lt l n = (l', n', Ok x) -> heappop ltb l = Some (x, l').
  Proof.
    unfold heappop_c, heappop. destruct (rev l) as [|z r]; [discriminate|]. destruct (rev r) as [|y t]; [intros [= <- _ <-]; auto|].
    destruct (siftup_at lt (z :: t) 0 n) as [[l1 n1] [v|e]] eqn:X; [|discriminate]. intros [= <- _ <-]. apply siftup_at_agrees in X. now rewrite X.
  Qed.
  Lemma remove_agrees o l : forall n l' n' u, list_remove_c eq o l n = (l', n', Ok u) -> list_remove eqb o l = Some l'.
  Proof.
    induction l as [|x l IH]; intros n l' n' u E; cbn [list_remove_c list_remove] in *; [discriminate|]. destruct (eq n x o) as [b|e] eqn:X; [|discriminate]. apply EQ in X. rewrite <- X.
    destruct b; [congruence|]. destruct (list_remove_c eq o l (S n)) as [[q m] [v|e]] eqn:Y; [|discriminate]. apply IH in Y. rewrite Y. congruence.
  Qed.
  Lemma push_agrees l x n l' n' u : heappush_c lt l x n = (l', n', Ok u) -> l' = heappush ltb l x.
  Proof.
    unfold heappush_c, heappush. intros E. rewrite app_length. cbn [length]. replace (length l + 1 - 1) with (length l) by lia. unfold siftdown.
    rewrite nth_error_app2, Nat.sub_diag by lia. cbn [nth_error]. eapply siftdown_agrees; [rewrite app_length; cbn; lia|].
    assert (X : upd (l ++ [x]) (length l) x = l ++ [x]) by (clear; induction l; cbn; congruence). rewrite X. exact E.
  Qed.
  (** the call of the model without exceptions *)
  Definition plain_op (op : xop A) : hop A :=
    match op with
    | XAppend o => Append o | XClear => Clear | XExtend i _ => Extend i | XRemove o => Remove o | XPopleft => Popleft
    | XAppendAndPopleft o => AppendAndPopleft o | XPopleftAndAppend o => PopleftAndAppend o
    end.
  Lemma xstep_agrees h n op h' n' v : xstep lt eq downward h n op = (h', n', Ok v) -> hstep ltb eqb h (plain_op op) = (h', Ok v).
  Proof.
    assert (F : forall B (f : B -> option A) x, finish h f x = (h', n', Ok v) -> exists q w, x = (q, n', Ok w) /\ h' = bump h q /\ v = f w).
    { intros B f [[q m] [w|e]] E; cbn in E; [|discriminate]. injection E as <- <- <-. exists q, w. auto. }
    destruct op as [o| |i [e|]|o| |o|o]; cbn [xstep plain_op hstep]; intros E.
    - apply F in E as (q & w & E & -> & ->). apply push_agrees in E. now subst q.
    - apply F in E as (q & w & E & -> & ->). injection E as <- _ _. auto.
    - apply F in E as (q & w & E & _). discriminate.
    - apply F in E as (q & w & E & -> & ->). apply heapify_agrees in E. now subst q.
    - destruct (list_remove_c eq o (h_queue h) n) as [[q m] [u|e]] eqn:R; [|apply F in E as (q' & w & E & _); discriminate]. apply remove_agrees in R. rewrite R.
      apply F in E as (q' & w & E & -> & ->). apply heapify_agrees in E. now subst q'.
    - apply F in E as (q & w & E & -> & ->). apply heappop_agrees in E. now rewrite E.
    - apply F in E as (q & w & E & -> & ->). unfold heappushpop_c, heappushpop in *. destruct (h_queue h) as [|top t]; [injection E as <- _ <-; auto|].
      destruct (lt n top o) as [b|e] eqn:L; [|discriminate]. apply LT in L. rewrite <- L. destruct b; [|injection E as <- _ <-; auto].
      destruct (siftup_at lt (o :: t) 0 (S n)) as [[l1 n1] [u|e]] eqn:X; [|discriminate]. apply siftup_at_agrees in X. injection E as <- _ <-. now subst l1.
    - apply F in E as (q & w & E & -> & ->). unfold heapreplace_c, heapreplace in *. destruct (h_queue h) as [|top t]; [discriminate|].
      destruct (siftup_at lt (o :: t) 0 n) as [[l1 n1] [u|e]] eqn:X; [|discriminate]. apply siftup_at_agrees in X. injection E as <- _ <-. now subst l1.
  Qed.
  Lemma xrun_agrees ops : forall h n h' n' vs, xrun lt eq downward h n ops = (h', n', map Ok vs) -> hrun ltb eqb h (map plain_op ops) = (h', map Ok vs).
  Proof.
    induction ops as [|op ops IH]; intros h n h' n' vs E; cbn [xrun hrun map] in *; [destruct vs; [|discriminate]; injection E as <- _; reflexivity|].
    destruct (xstep lt eq downward h n op) as [[h1 n1] r] eqn:X. destruct (xrun lt eq downward h1 n1 ops) as [[h2 n2] rs] eqn:Y. destruct vs as [|v vs]; [discriminate|]. cbn [map] in E.
    injection E as <- <- -> ->. apply xstep_agrees in X. rewrite X. now rewrite (IH _ _ _ _ _ Y).
  Qed.
  (** As long as nothing has been raised, the heap is the sorted multiset of C01. *)
  Theorem C115_sorted_while_nothing_raised ops init n h' n' vs : strict_weak ltb ->
    xrun lt eq downward (heap_init ltb init) n ops = (h', n', map Ok vs) -> mrun ltb eqb init (map plain_op ops) (h_queue h') (map Ok vs).
  Proof.
    intros W E. apply xrun_agrees in E. destruct (heap_init_spec ltb eqb W init) as [I P]. pose proof (hrun_refines ltb eqb W (map plain_op ops) _ I) as H. rewrite E in H.
    destruct H as (_ & H). eapply mrun_perm_l; [symmetry; exact P|]. exact H.
  Qed.
  (** After any history, in which anything may have been raised, an extend that succeeds, or a remove, makes it one again. *)
  Theorem C115_repaired ops h n h1 n1 op h2 n2 v ops' h3 n3 vs outs : strict_weak ltb ->
    xrun lt eq downward h n ops = (h1, n1, outs) -> (exists i, op = XExtend i None) \/ (exists o, op = XRemove o) ->
    xstep lt eq downward h1 n1 op = (h2, n2, Ok v) -> xrun lt eq downward h2 n2 ops' = (h3, n3, map Ok vs) ->
    mrun ltb eqb (h_queue h2) (map plain_op ops') (h_queue h3) (map Ok vs).
  Proof.
    intros W _ K E R. apply xrun_agrees in R. assert (I : is_heap ltb (h_queue h2)).
    { apply xstep_agrees in E. destruct K as [(i & ->)|(o & ->)]; cbn [plain_op hstep] in E.
      - injection E as <- _. apply (heapify_spec ltb W).
      - destruct (list_remove eqb o (h_queue h1)) as [q|]; [|discriminate]. injection E as <- _. apply (heapify_spec ltb W). }
    pose proof (hrun_refines ltb eqb W (map plain_op ops') _ I) as H. rewrite R in H. apply H.
  Qed.
End Agreement.
(** * Against what one would expect *)
(** "A call that raises changes nothing" is false.  A value that cannot be compared stays in the heap, for every heap and every such append. *)
Theorem C115_failed_append_refuted {A} (lt eq : nat -> A -> A -> result bool) order h n o h' n' e :
  xstep lt eq order h n (XAppend o) = (h', n', Err e) -> In o (h_queue h') /\ length (h_queue h') = S (length (h_queue h)).
Proof.
  intros E. pose proof (C115_contents lt eq order h n (XAppend o)) as C. rewrite E in C. inversion C; subst.
  split; [eapply Permutation_in; [apply Permutation_sym; eassumption|left; auto]|]. match goal with H : Permutation _ (_ :: _) |- _ => apply Permutation_length in H; exact H end.
Qed.
(** Here the values are numbers and one kind of value (None) that cannot be compared with anything. *)
Definition lt_opt (_ : nat) (x y : option Z) : result bool := match x, y with Some a, Some b => Ok (a <? b)%Z | _, _ => Err TypeError end.
Definition eq_opt (_ : nat) (x y : option Z) : result bool := match x, y with Some a, Some b => Ok (a =? b)%Z | None, None => Ok true | _, _ => Ok false end.
(** A popleft that raises loses a value: here the 1. *)
Theorem C115_lost_value_refuted : exists h,
  xrun lt_opt eq_opt downward (mkHeap [] 0) 0 [XAppend (Some 1%Z); XAppend (Some 2%Z); XAppend None] = (h, 2, [Ok None; Ok None; Err TypeError]) /\
  exists h', xstep lt_opt eq_opt downward h 2 XPopleft = (h', 3, Err TypeError) /\ h_queue h' = [Some 2%Z; None].
Proof. eexists. split; [vm_compute; reflexivity|]. eexists. split; vm_compute; reflexivity. Qed.
(** After an exception in the iterable given to extend, popleft returns a value that is not the smallest, and then one that is smaller. *)
Theorem C115_order_refuted :
  snd (xrun lt_opt eq_opt downward (mkHeap [] 0) 0 [XAppend (Some 5%Z); XExtend [Some 1%Z] (Some KeyError); XPopleft; XPopleft]) =
  [Ok None; Err KeyError; Ok (Some (Some 5%Z)); Ok (Some (Some 1%Z))].
Proof. vm_compute. reflexivity. Qed.
(** No iterator notices a call that raised, even if it has added or lost a value. *)
Theorem C115_iterators_unaffected {A} (lt eq : nat -> A -> A -> result bool) order h n op h' n' e it m :
  xstep lt eq order h n op = (h', n', Err e) -> xnext lt h' it m = xnext lt h it m.
Proof. intros E. pose proof (C115_version lt eq order h n op) as V. rewrite E in V. unfold xnext. now rewrite V. Qed.
(** Hypotheses met: lt_opt says what [<] says of numbers when it does not raise. *)
Example C115_hypotheses : forall n x y b, lt_opt n x y = Ok b -> b = match x, y with Some a, Some b => (a <? b)%Z | _, _ => false end.
Proof. intros n [x|] [y|] b E; cbn in E; congruence. Qed.
Example C115_repaired_witness : exists h1 h2,
  xrun lt_opt eq_opt downward (mkHeap [] 0) 0 [XAppend (Some 5%Z); XExtend [Some 1%Z; Some 3%Z] (Some KeyError)] = (h1, 0, [Ok None; Err KeyError]) /\
  xstep lt_opt eq_opt downward h1 0 (XExtend [] None) = (h2, 2, Ok None) /\
  snd (xrun lt_opt eq_opt downward h2 2 [XPopleft; XPopleft; XPopleft]) = map Ok [Some (Some 1%Z); Some (Some 3%Z); Some (Some 5%Z)].
Proof. eexists. eexists. repeat split; vm_compute; reflexivity. Qed.
Print Assumptions C115_contents. Print Assumptions C115_version. Print Assumptions C115_conservation. Print Assumptions C115_sorted_while_nothing_raised.
Print Assumptions C115_repaired. Print Assumptions C115_failed_append_refuted. Print Assumptions C115_lost_value_refuted. Print Assumptions C115_order_refuted. Print Assumptions C115_iterators_unaffected.
