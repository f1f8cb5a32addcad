(** Proofs about bound inner classes: the C3 linearisation. *)
From Verif Require Import PyStrProof BicModel.

Lemma in_tail_iff c ls : in_tail c ls = true <-> exists h t, In (h :: t) ls /\ In c t.
Proof.
  unfold in_tail. rewrite existsb_exists. split.
  - intros ([|h t] & I & H); [discriminate|]. apply existsb_exists in H. destruct H as (x & J & E). apply Nat.eqb_eq in E. subst x. exists h, t. auto.
  - intros (h & t & I & J). exists (h :: t). split; [exact I|]. apply existsb_exists. exists c. split; [exact J|apply Nat.eqb_refl].
Qed.
Lemma in_tail_false c ls : in_tail c ls = false <-> forall h t, In (h :: t) ls -> ~ In c t.
Proof.
  split.
  - intros H h t I J. assert (T : in_tail c ls = true) by (apply in_tail_iff; eauto). congruence.
  - intros H. destruct (in_tail c ls) eqn:E; [|reflexivity]. apply in_tail_iff in E. destruct E as (h & t & I & J). destruct (H h t I J).
Qed.
Definition blocked (all : list (list cid)) (l : list cid) : Prop := match l with [] => True | h :: _ => in_tail h all = true end.
Lemma find_head_elim all ls x : find_head all ls = Some x ->
  exists ls1 l ls2, ls = ls1 ++ (x :: l) :: ls2 /\ in_tail x all = false /\ Forall (blocked all) ls1.
Proof.
  induction ls as [|[|h t] ls IH]; cbn [find_head]; intros H; [discriminate| |].
  - destruct (IH H) as (a & l & b & -> & T & F). exists ([] :: a), l, b. split; [reflexivity|]. split; [exact T|]. constructor; [exact I|exact F].
  - destruct (in_tail h all) eqn:E.
    + destruct (IH H) as (a & l & b & -> & T & F). exists ((h :: t) :: a), l, b. split; [reflexivity|]. split; [exact T|]. constructor; [exact E|exact F].
    + injection H as <-. exists [], t, ls. split; [reflexivity|]. split; [exact E|constructor].
Qed.
Lemma find_head_intro all ls1 x l ls2 : in_tail x all = false -> Forall (blocked all) ls1 -> find_head all (ls1 ++ (x :: l) :: ls2) = Some x.
Proof.
  intros T F. induction F as [|[|h t] ls1 B F IH]; cbn [app find_head]; [rewrite T; reflexivity|exact IH|]. cbn [blocked] in B. rewrite B. exact IH.
Qed.
Lemma all_empty_iff ls : all_empty ls = true <-> Forall (fun l => l = []) ls.
Proof.
  unfold all_empty. rewrite forallb_forall, Forall_forall. split; intros H l I; specialize (H l I); destruct l; auto; discriminate.
Qed.
Definition total (ls : list (list cid)) : nat := list_sum (map (@length cid) ls).
Lemma drop_le x l : length (drop_head x l) <= length l.
Proof. destruct l as [|h t]; cbn; [lia|]. destruct (h =? x); cbn; lia. Qed.
Lemma total_drop x ls : total (map (drop_head x) ls) <= total ls.
Proof. unfold total. induction ls as [|l ls IH]; [cbn; lia|]. cbn [map list_sum fold_right]. unfold list_sum in IH. pose proof (drop_le x l). lia. Qed.
Lemma total_drop_lt x l ls1 ls2 : total (map (drop_head x) (ls1 ++ (x :: l) :: ls2)) < total (ls1 ++ (x :: l) :: ls2).
Proof.
  unfold total. rewrite !map_app, !list_sum_app. cbn [map list_sum fold_right drop_head]. rewrite Nat.eqb_refl. pose proof (total_drop x ls1). pose proof (total_drop x ls2). unfold total, list_sum in *. cbn [length]. lia.
Qed.
Lemma merge_length f ls r : merge f ls = Some r -> length r <= total ls.
Proof.
  revert ls r. induction f as [|f IH]; intros ls r H; cbn [merge] in H; destruct (all_empty ls); try (injection H as <-; cbn; lia); [discriminate|].
  destruct (find_head ls ls) as [x|] eqn:E; [|discriminate]. destruct (merge f (map (drop_head x) ls)) as [r'|] eqn:E'; [|discriminate]. injection H as <-.
  apply IH in E'. apply find_head_elim in E. destruct E as (a & l & b & E & _). rewrite E in *. pose proof (total_drop_lt x l a b). cbn [length]. lia.
Qed.
Lemma merge_fuel f ls r : merge f ls = Some r -> forall f', length r <= f' -> merge f' ls = Some r.
Proof.
  revert ls r. induction f as [|f IH]; intros ls r H f' L; cbn [merge] in H.
  - destruct (all_empty ls) eqn:A; [|discriminate]. injection H as <-. destruct f'; cbn [merge]; rewrite A; reflexivity.
  - destruct (all_empty ls) eqn:A; [injection H as <-; destruct f'; cbn [merge]; rewrite A; reflexivity|].
    destruct (find_head ls ls) as [x|] eqn:E; [|discriminate]. destruct (merge f (map (drop_head x) ls)) as [r'|] eqn:E'; [|discriminate]. injection H as <-.
    cbn [length] in L. destruct f' as [|f']; [lia|]. cbn [merge]. rewrite A, E. rewrite (IH _ _ E' f') by lia. reflexivity.
Qed.
Lemma drop_in x y l : In y (drop_head x l) -> In y l.
Proof. destruct l as [|h t]; cbn; [auto|]. destruct (h =? x); [right; assumption|auto]. Qed.
(** every element of the result is from the lists, and every element of the lists is in the result *)
Lemma merge_in f ls r : merge f ls = Some r -> forall y, In y r <-> exists l, In l ls /\ In y l.
Proof.
  revert ls r. induction f as [|f IH]; intros ls r H y; cbn [merge] in H.
  - destruct (all_empty ls) eqn:A; [|discriminate]. injection H as <-. apply all_empty_iff in A. rewrite Forall_forall in A. split; [intros []|]. intros (l & I & J). rewrite (A l I) in J. destruct J.
  - destruct (all_empty ls) eqn:A.
    { injection H as <-. apply all_empty_iff in A. rewrite Forall_forall in A. split; [intros []|]. intros (l & I & J). rewrite (A l I) in J. destruct J. }
    destruct (find_head ls ls) as [x|] eqn:E; [|discriminate]. destruct (merge f (map (drop_head x) ls)) as [r'|] eqn:E'; [|discriminate]. injection H as <-.
    apply find_head_elim in E. destruct E as (a & l & b & E & T & _). specialize (IH _ _ E' y). cbn [In]. rewrite IH. split.
    + intros [<- | (m & M1 & M2)].
      * exists (x :: l). split; [rewrite E; apply in_or_app; right; left; reflexivity|left; reflexivity].
      * apply in_map_iff in M1. destruct M1 as (m' & <- & M1). exists m'. split; [exact M1|apply (drop_in x), M2].
    + intros (m & M1 & M2). destruct (Nat.eq_dec x y) as [-> |NE]; [left; reflexivity|right]. exists (drop_head x m). split; [apply in_map, M1|].
      destruct m as [|h t]; [destruct M2|]. cbn [drop_head]. destruct (Nat.eqb_spec h x) as [-> |]; [|exact M2]. destruct M2 as [M2|M2]; [contradiction|exact M2].
Qed.
(** each list is in order in the result *)
Inductive subseq : list cid -> list cid -> Prop :=
| sub_nil : subseq [] []
| sub_skip x l r : subseq l r -> subseq l (x :: r)
| sub_take x l r : subseq l r -> subseq (x :: l) (x :: r).
Lemma merge_subseq f ls r : merge f ls = Some r -> forall l, In l ls -> subseq l r.
Proof.
  revert ls r. induction f as [|f IH]; intros ls r H l I; cbn [merge] in H.
  - destruct (all_empty ls) eqn:A; [|discriminate]. injection H as <-. apply all_empty_iff in A. rewrite Forall_forall in A. rewrite (A l I). constructor.
  - destruct (all_empty ls) eqn:A.
    { injection H as <-. apply all_empty_iff in A. rewrite Forall_forall in A. rewrite (A l I). constructor. }
    destruct (find_head ls ls) as [x|] eqn:E; [|discriminate]. destruct (merge f (map (drop_head x) ls)) as [r'|] eqn:E'; [|discriminate]. injection H as <-.
    specialize (IH _ _ E' (drop_head x l) (in_map _ _ _ I)). destruct l as [|h t]; [apply sub_skip; exact IH|]. cbn [drop_head] in IH.
    destruct (Nat.eqb_spec h x) as [-> |]; [apply sub_take; exact IH|apply sub_skip; exact IH].
Qed.

(** Doubling: put the bound class in front of each decorated class *)
Section Double.
  Context (dec : cid -> bool) (W : cid -> cid) (N : nat).
  Hypothesis W_new : forall x, dec x = true -> N <= W x.
  Hypothesis W_inj : forall x y, dec x = true -> dec y = true -> W x = W y -> x = y.
  Definition dd (x : cid) : list cid := if dec x then [W x; x] else [x].
  Definition D (l : list cid) : list cid := flat_map dd l.
  Definition h (x : cid) : cid := if dec x then W x else x.
  Definition old (l : list cid) : Prop := Forall (fun x => x < N) l.
  Definition dbl (p : bool * list cid) : list cid := if fst p then D (snd p) else map h (snd p).
  Lemma D_old x l : x < N -> In x (D l) <-> In x l.
  Proof.
    intros L. unfold D. rewrite in_flat_map. split.
    - intros (y & I & J). unfold dd in J. destruct (dec y) eqn:E.
      + destruct J as [J | [-> | []]]; [|exact I]. pose proof (W_new y E). lia.
      + destruct J as [-> | []]. exact I.
    - intros I. exists x. split; [exact I|]. unfold dd. destruct (dec x); [right; left; reflexivity|left; reflexivity].
  Qed.
  Lemma D_new x l : old l -> dec x = true -> In (W x) (D l) <-> In x l.
  Proof.
    intros O E. unfold old in O. rewrite Forall_forall in O. pose proof (W_new x E). unfold D. rewrite in_flat_map. split.
    - intros (y & I & J). unfold dd in J. specialize (O y I). destruct (dec y) eqn:E'.
      + destruct J as [J | [J | []]]; [|lia]. rewrite (W_inj y x E' E J) in I. exact I.
      + destruct J as [J | []]. lia.
    - intros I. exists x. split; [exact I|]. unfold dd. rewrite E. left. reflexivity.
  Qed.
  Lemma h_in x l : old l -> x < N -> In (h x) (map h l) <-> In x l.
  Proof.
    intros O L. unfold old in O. rewrite Forall_forall in O. split; [|apply in_map]. rewrite in_map_iff. intros (y & Q & I). specialize (O y I). unfold h in Q.
    destruct (dec y) eqn:E1, (dec x) eqn:E2.
    - rewrite (W_inj _ _ E1 E2 Q) in I. exact I.
    - pose proof (W_new y E1). lia.
    - pose proof (W_new x E2). lia.
    - subst. exact I.
  Qed.
  Lemma hD_in x l : old l -> x < N -> In (h x) (D l) <-> In x l.
  Proof. intros O L. unfold h. destruct (dec x) eqn:E; [apply D_new; assumption | apply D_old; exact L]. Qed.
  Lemma dbl_head b x t : exists t', dbl (b, x :: t) = h x :: t'.
  Proof. destruct b; unfold dbl; cbn [fst snd]; [|eexists; reflexivity]. unfold D. cbn [flat_map]. unfold dd, h. destruct (dec x); eexists; reflexivity. Qed.
  (** h y is in the tail of the doubled list if y is in the tail of the list *)
  Lemma dbl_tail b a t y : old (a :: t) -> y < N -> In y t -> exists h0 t', dbl (b, a :: t) = h0 :: t' /\ In (h y) t'.
  Proof.
    intros O L I. inversion O as [|? ? O1 O2]; subst. destruct b; unfold dbl; cbn [fst snd].
    - unfold D. cbn [flat_map]. fold (D t). assert (J : In (h y) (D t)) by (apply hD_in; assumption). unfold dd. destruct (dec a); cbn [app]; eexists _, _; split; try reflexivity; [right|]; exact J.
    - cbn [map]. eexists _, _. split; [reflexivity|]. apply h_in; assumption.
  Qed.
  Lemma dbl_nil p : snd p = [] -> dbl p = [].
  Proof. destruct p as [[|] l]; cbn; intros ->; reflexivity. Qed.
  Lemma double_merge : forall f (fl : list (bool * list cid)) r, merge f (map snd fl) = Some r ->
    Forall (fun p => old (snd p)) fl ->
    (forall l x, In (false, l) fl -> In x l -> exists l', In (true, l') fl /\ In x l') ->
    forall f', length (D r) <= f' -> merge f' (r :: map dbl fl) = Some (D r).
  Proof.
    induction f as [|f IH]; intros fl r M O C f' L; cbn [merge] in M.
    - destruct (all_empty (map snd fl)) eqn:A; [|discriminate]. injection M as <-. assert (A' : all_empty ([] :: map dbl fl) = true).
      { apply all_empty_iff. apply all_empty_iff in A. constructor; [reflexivity|]. rewrite Forall_map in A |- *. apply (Forall_impl _ dbl_nil A). }
      destruct f'; cbn [merge]; rewrite A'; reflexivity.
    - destruct (all_empty (map snd fl)) eqn:A.
      { injection M as <-. assert (A' : all_empty ([] :: map dbl fl) = true).
        { apply all_empty_iff. apply all_empty_iff in A. constructor; [reflexivity|]. rewrite Forall_map in A |- *. apply (Forall_impl _ dbl_nil A). }
        destruct f'; cbn [merge]; rewrite A'; reflexivity. }
      destruct (find_head (map snd fl) (map snd fl)) as [x|] eqn:FH; [|discriminate]. destruct (merge f (map (drop_head x) (map snd fl))) as [r'|] eqn:M'; [|discriminate]. injection M as <-.
      apply find_head_elim in FH. destruct FH as (ls1 & l0 & ls2 & E & T & B).
      rewrite in_tail_false in T. rewrite Forall_forall in O.
      (* the pieces of fl *)
      apply map_eq_app in E. destruct E as (fl1 & fl2 & -> & E1 & E2). apply map_eq_cons in E2. destruct E2 as ([b0 l00] & fl3 & -> & E3 & E4). cbn [snd] in E3. subst l00 ls1 ls2.
      set (fl := fl1 ++ (b0, x :: l0) :: fl3) in *.
      assert (X : x < N).
      { assert (Q : old (x :: l0)) by (apply (O (b0, x :: l0)); apply in_or_app; right; left; reflexivity). inversion Q; assumption. }
      set (fl' := map (fun p => (fst p, drop_head x (snd p))) fl).
      assert (EF : map (drop_head x) (map snd fl) = map snd fl') by (unfold fl'; rewrite !map_map; reflexivity). rewrite EF in M'.
      assert (XT : forall b h0 t, In (b, h0 :: t) fl -> ~ In x t) by (intros b h0 t I; apply (T h0 t); apply (in_map snd) in I; exact I).
      assert (O' : Forall (fun p => old (snd p)) fl').
      { apply Forall_forall. intros p I. unfold fl' in I. apply in_map_iff in I. destruct I as ([b l] & <- & I). cbn [fst snd]. specialize (O _ I). cbn [snd] in O. unfold old in *. rewrite Forall_forall in O |- *. intros y J. apply O, (drop_in x), J. }
      assert (XL : forall b l, In (b, l) fl -> ~ In x (drop_head x l)).
      { intros b l I J. destruct l as [|a t]; [destruct J|]. cbn [drop_head] in J. destruct (Nat.eqb_spec a x) as [-> |NE]; [apply (XT b x t I J)|]. destruct J as [J|J]; [contradiction|apply (XT b a t I J)]. }
      assert (C' : forall l y, In (false, l) fl' -> In y l -> exists l', In (true, l') fl' /\ In y l').
      { intros l y I J. unfold fl' in I. apply in_map_iff in I. destruct I as ([b m] & Q & I). cbn [fst snd] in Q. injection Q as -> <-.
        destruct (C m y I (drop_in _ _ _ J)) as (m' & I' & J'). assert (NE : y <> x) by (intros ->; apply (XL _ _ I J)).
        exists (drop_head x m'). split; [unfold fl'; apply in_map_iff; exists (true, m'); auto|]. destruct m' as [|a t]; [destruct J'|]. cbn [drop_head]. destruct (Nat.eqb_spec a x) as [-> |]; [|exact J']. destruct J' as [J'|J']; [congruence|exact J']. }
      assert (XR : ~ In x r').
      { intros I. rewrite (merge_in _ _ _ M' x) in I. destruct I as (l & I & J). apply in_map_iff in I. destruct I as ([b m] & <- & I). unfold fl' in I. apply in_map_iff in I. destruct I as ([b' m'] & Q & I). cbn [fst snd] in *. injection Q as -> <-. apply (XL _ _ I J). }
      assert (RO : old r').
      { apply Forall_forall. intros y I. rewrite (merge_in _ _ _ M' y) in I. destruct I as (l & I & J). apply in_map_iff in I. destruct I as (p & <- & I). rewrite Forall_forall in O'. specialize (O' _ I). unfold old in O'. rewrite Forall_forall in O'. apply O', J. }
      assert (L' : length (D r') + length (dd x) <= f') by (unfold D in L; cbn [flat_map] in L; rewrite app_length in L; unfold D; lia).
      assert (NE0 : all_empty ((x :: r') :: map dbl fl) = false) by reflexivity.
      (* removing x (and W x) from a doubled list *)
      assert (DROP : forall b l, In (b, l) fl -> drop_head x (drop_head (h x) (dbl (b, l))) = dbl (b, drop_head x l)).
      { intros b l I. destruct l as [|a t]; [destruct b; reflexivity|]. specialize (O _ I). cbn [snd] in O. inversion O as [|? ? O1 O2]; subst.
        assert (HA : forall t', (h a :: t') = h a :: t') by reflexivity.
        cbn [drop_head]. destruct (Nat.eqb_spec a x) as [-> |NE].
        - pose proof (XT _ _ _ I) as NX. destruct b; unfold dbl; cbn [fst snd].
          + unfold D. cbn [flat_map]. fold (D t). unfold dd, h. destruct (dec x) eqn:EX; cbn [app drop_head]; rewrite ?Nat.eqb_refl; [cbn [drop_head]; rewrite Nat.eqb_refl; reflexivity|].
            destruct (D t) as [|y t'] eqn:ED; [reflexivity|]. cbn [drop_head]. destruct (Nat.eqb_spec y x) as [-> |]; [|reflexivity]. exfalso. apply NX. apply (D_old x t X). rewrite ED. left; reflexivity.
          + cbn [map drop_head]. rewrite Nat.eqb_refl. destruct t as [|y t]; [reflexivity|]. cbn [map drop_head]. destruct (Nat.eqb_spec (h y) x) as [Q|]; [|reflexivity]. exfalso. unfold h in Q. destruct (dec y) eqn:EY; [pose proof (W_new y EY); lia|]. apply NX. left. exact Q.
        - assert (HNE : h a <> h x).
          { intros Q. unfold h in Q. destruct (dec a) eqn:E1, (dec x) eqn:E2; [apply NE, W_inj; assumption|pose proof (W_new a E1); lia|pose proof (W_new x E2); lia|contradiction]. }
          assert (HNX : h a <> x) by (unfold h; destruct (dec a) eqn:E1; [pose proof (W_new a E1); lia|exact NE]).
          destruct (dbl_head b a t) as [t' ->]. cbn [drop_head]. destruct (Nat.eqb_spec (h a) (h x)); [contradiction|]. cbn [drop_head]. destruct (Nat.eqb_spec (h a) x); [contradiction|reflexivity]. }
      assert (DROPS : map (drop_head x) (map (drop_head (h x)) (map dbl fl)) = map dbl fl').
      { unfold fl'. rewrite !map_map. apply map_ext_in. intros [b l] I. cbn [fst snd]. apply DROP, I. }
      (* the doubled lists in front are blocked *)
      assert (BL : Forall (blocked ((x :: r') :: map dbl fl)) (map dbl fl1)).
      { rewrite Forall_map in B |- *. rewrite Forall_forall in B |- *. intros [b l] I. specialize (B _ I). cbn [snd] in B.
        assert (I' : In (b, l) fl) by (apply in_or_app; left; exact I). destruct l as [|a t]; [destruct b; exact Logic.I|]. cbn [blocked] in B. apply in_tail_iff in B. destruct B as (h0 & t0 & J & K).
        apply in_map_iff in J. destruct J as ([b1 l1] & Q & J). cbn [snd] in Q. subst l1. pose proof (O _ I') as OA. cbn [snd] in OA. inversion OA as [|? ? OA1 OA2]; subst.
        destruct (dbl_head b a t) as [t' ->]. cbn [blocked]. apply in_tail_iff. destruct (dbl_tail b1 h0 t0 a (O _ J) OA1 K) as (h1 & t1 & Q & R). exists h1, t1. split; [|exact R]. right. rewrite <- Q. apply in_map, J. }
      (* h x is in no tail of the doubled lists *)
      assert (NT : forall b l h0 t, In (b, l) fl -> dbl (b, l) = h0 :: t -> ~ In (h x) t).
      { intros b l h0 t I Q J. pose proof (O _ I) as OA. cbn [snd] in OA. destruct l as [|a s]; [destruct b; discriminate|]. inversion OA as [|? ? OA1 OA2]; subst. pose proof (XT _ _ _ I) as NX.
        destruct b; unfold dbl in Q; cbn [fst snd] in Q.
        - unfold D in Q. cbn [flat_map] in Q. fold (D s) in Q. unfold dd in Q. destruct (dec a) eqn:EA; cbn [app] in Q; injection Q as <- <-.
          + destruct J as [J | J]; [|apply NX; apply (hD_in x s OA2 X); exact J]. unfold h in J. destruct (dec x) eqn:EX; [pose proof (W_new x EX); lia|congruence].
          + apply NX; apply (hD_in x s OA2 X); exact J.
        - cbn [map] in Q. injection Q as <- <-. apply NX. apply (h_in x s OA2 X). exact J. }
      unfold D. cbn [flat_map]. unfold dd in L' |- *. destruct (dec x) eqn:EX; cbn [app length] in L' |- *.
      + (* two steps *)
        destruct f' as [|[|f']]; [lia|lia|]. cbn [merge]. rewrite NE0.
        assert (HX : h x = W x) by (unfold h; rewrite EX; reflexivity).
        assert (F1 : find_head ((x :: r') :: map dbl fl) ((x :: r') :: map dbl fl) = Some (W x)).
        { cbn [find_head]. assert (TX : in_tail x ((x :: r') :: map dbl fl) = true).
          { assert (Q : exists t, In (true, x :: t) fl).
            { destruct b0.
              - exists l0. apply in_or_app. right. left. reflexivity.
              - destruct (C (x :: l0) x) as (l' & I' & J'); [apply in_or_app; right; left; reflexivity|left; reflexivity|]. destruct l' as [|a t]; [destruct J'|]. destruct J' as [<- |J']; [exists t; exact I'|destruct (XT _ _ _ I' J')]. }
            destruct Q as (t & I). apply in_tail_iff. exists (W x), (x :: D t). split; [|left; reflexivity]. right. apply in_map_iff. exists (true, x :: t). split; [|exact I]. unfold dbl, D. cbn [fst snd flat_map]. unfold dd at 1. rewrite EX. reflexivity. }
          rewrite TX. unfold fl at 2. rewrite map_app. cbn [map]. destruct (dbl_head b0 x l0) as [t0 Q0]. rewrite Q0, HX. apply find_head_intro; [|exact BL].
          apply in_tail_false. intros h0 t I J. destruct I as [I | I].
          - injection I as <- <-. pose proof (W_new x EX). unfold old in RO. rewrite Forall_forall in RO. specialize (RO _ J). lia.
          - apply in_map_iff in I. destruct I as ([b l] & Q & I). rewrite <- HX in J. apply (NT b l h0 t I Q J). }
        rewrite F1. set (ls' := map (drop_head (W x)) ((x :: r') :: map dbl fl)).
        assert (EL : ls' = (x :: r') :: map (drop_head (h x)) (map dbl fl)).
        { unfold ls'. cbn [map drop_head]. rewrite HX. destruct (Nat.eqb_spec x (W x)) as [Q|]; [pose proof (W_new x EX); lia|reflexivity]. }
        assert (NE1 : all_empty ls' = false) by (rewrite EL; reflexivity). rewrite NE1.
        assert (F2 : find_head ls' ls' = Some x).
        { assert (TX : in_tail x ls' = false).
          { rewrite EL. apply in_tail_false. intros h0 t I J. destruct I as [I | I]; [injection I as <- <-; contradiction|].
            apply in_map_iff in I. destruct I as (m & Q & I). apply in_map_iff in I. destruct I as ([b l] & <- & I).
            pose proof (DROP b l I) as DR. rewrite Q in DR. pose proof (O _ I) as OA. cbn [snd] in OA.
            assert (JJ : In x (dbl (b, drop_head x l))).
            { rewrite <- DR. cbn [drop_head]. destruct (h0 =? x); [exact J|right; exact J]. }
            destruct b; unfold dbl in JJ; cbn [fst snd] in JJ.
            - apply (XL _ _ I). apply (D_old x (drop_head x l) X). exact JJ.
            - apply in_map_iff in JJ. destruct JJ as (y & Q' & JJ). unfold h in Q'. destruct (dec y) eqn:EY; [pose proof (W_new y EY); lia|congruence]. }
          rewrite EL in TX |- *. cbn [find_head]. rewrite TX. reflexivity. }
        rewrite F2. rewrite EL. cbn [map drop_head]. rewrite Nat.eqb_refl. fold (map (drop_head x) (map (drop_head (h x)) (map dbl fl))).
        change (map (fun l => drop_head x l)) with (map (drop_head x)). rewrite DROPS. rewrite (IH fl' r' M' O' C' f') by lia. reflexivity.
      + (* one step *)
        destruct f' as [|f']; [lia|]. cbn [merge]. rewrite NE0.
        assert (HX : h x = x) by (unfold h; rewrite EX; reflexivity).
        assert (F1 : find_head ((x :: r') :: map dbl fl) ((x :: r') :: map dbl fl) = Some x).
        { cbn [find_head]. assert (TX : in_tail x ((x :: r') :: map dbl fl) = false).
          { apply in_tail_false. intros h0 t I J. destruct I as [I | I]; [injection I as <- <-; contradiction|]. apply in_map_iff in I. destruct I as ([b l] & Q & I). rewrite <- HX in J. apply (NT b l h0 t I Q J). }
          rewrite TX. reflexivity. }
        rewrite F1. cbn [map drop_head]. rewrite Nat.eqb_refl.
        assert (DROPS1 : map (drop_head x) (map dbl fl) = map dbl fl').
        { unfold fl'. rewrite !map_map. apply map_ext_in. intros [b l] I. cbn [fst snd]. rewrite <- (DROP b l I), HX. symmetry.
          destruct (dbl (b, l)) as [|y t] eqn:EQ; [reflexivity|]. cbn [drop_head]. destruct (Nat.eqb_spec y x) as [-> |NE]; [|cbn [drop_head]; destruct (Nat.eqb_spec y x); [contradiction|reflexivity]].
          destruct t as [|z t]; [reflexivity|]. cbn [drop_head]. destruct (Nat.eqb_spec z x) as [-> |]; [|reflexivity]. exfalso. apply (NT b l x (x :: t) I EQ). rewrite HX. left. reflexivity. }
        rewrite DROPS1, (IH fl' r' M' O' C' f') by lia. reflexivity.
  Qed.
End Double.
