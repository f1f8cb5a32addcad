(** Proofs about combine_splits. *)
From Verif Require Import PyBaseProof HeapModel HeapSpec HeapProof CombineModel CombineSpec.

Lemma ints_weak : strict_weak ints_ltb.
Proof.
  split; [|split].
  - induction a as [|x a IH]; cbn; auto. rewrite IH, Z.ltb_irrefl. now rewrite andb_false_r.
  - induction a as [|x a IH]; intros [|y b] E; cbn in *; auto; try discriminate. apply orb_true_iff in E. destruct E as [E|E].
    + apply Z.ltb_lt in E. assert (y <? x = false) as -> by lia. assert (y =? x = false) as -> by lia. reflexivity.
    + apply andb_true_iff in E. destruct E as [E1 E2]. apply Z.eqb_eq in E1. subst. now rewrite (IH _ E2), Z.ltb_irrefl, andb_false_r.
  - induction a as [|x a IH]; intros [|y b] [|z c] E1 E2; cbn in *; auto; try discriminate.
    apply orb_false_iff in E1, E2. destruct E1 as [E1 F1], E2 as [E2 F2]. apply Z.ltb_ge in E1, E2. apply orb_false_iff. split; [lia|].
    destruct (z =? x) eqn:E; auto. apply Z.eqb_eq in E. assert (y = x) by lia. assert (z = y) by lia. subst. rewrite Z.eqb_refl in *. cbn in *. eauto.
Qed.
Lemma decrement_ltb index a b : ints_ltb (decrement index a) (decrement index b) = ints_ltb a b.
Proof.
  destruct a as [|x a], b as [|y b]; cbn; auto. assert (x - index <? y - index = (x <? y)) as -> by lia. assert (x - index =? y - index = (x =? y)) as -> by lia. reflexivity.
Qed.
Lemma decrement_heap index heap : is_heap ints_ltb heap -> is_heap ints_ltb (map (decrement index) heap).
Proof.
  intros H d j Hj Hd. rewrite map_length in Hj. specialize (H [] j Hj Hd). unfold ok in *.
  rewrite (nth_indep' _ j d (decrement index [])) by (rewrite map_length; lia). rewrite (nth_indep' _ ((j - 1) / 2) d (decrement index [])).
  - rewrite !map_nth, decrement_ltb. exact H.
  - rewrite map_length. assert ((j - 1) / 2 <= j - 1)%nat by (apply Nat.div_le_upper_bound; lia). lia.
Qed.

Definition total (l : list Z) : Z := fold_right Z.add 0 l.
Definition zcut (l : list Z) (k : Z) : Prop := exists a b, l = a ++ b /\ total a = k.
Lemma zcut_cons x l k : zcut (x :: l) k <-> k = 0 \/ zcut l (k - x).
Proof.
  split.
  - intros ([|y a] & b & E & T); [left; auto|]. injection E as <- ->. right. exists a, b. split; auto. cbn in T. fold (total a) in T. lia.
  - intros [->|(a & b & -> & T)]; [exists [], (x :: l); auto|]. exists (x :: a), b. split; auto. cbn. fold (total a). lia.
Qed.
Lemma zcut_nil k : zcut [] k <-> k = 0.
Proof. split; [intros ([|] & b & E & T); [auto|discriminate]|intros ->; exists [], []; auto]. Qed.
Lemma cut_cons p ps k : cut (p :: ps) k <-> k = 0%nat \/ (length p <= k /\ cut ps (k - length p))%nat.
Proof.
  split.
  - intros ([|y a] & b & E & T); [left; auto|]. injection E as <- ->. right. cbn in T. rewrite app_length in T. split; [lia|]. exists a, b. split; auto. lia.
  - intros [->|(L & a & b & -> & T)]; [exists [], (p :: ps); auto|]. exists (p :: a), b. split; auto. cbn. rewrite app_length. lia.
Qed.
Lemma cut_nil k : cut [] k <-> k = 0%nat.
Proof. split; [intros ([|] & b & E & T); [auto|discriminate]|intros ->; exists [], []; auto]. Qed.
Lemma lengths_cut split : forall k, zcut (lengths_of split) (Z.of_nat k) <-> cut split k.
Proof.
  induction split as [|w split IH]; intros k.
  - cbn. rewrite zcut_nil, cut_nil. lia.
  - rewrite cut_cons. unfold lengths_of. cbn [filter]. destruct w as [|c w].
    + fold (lengths_of split). rewrite IH. cbn [length]. rewrite Nat.sub_0_r. split; [intros; right; split; [lia|auto]|]. intros [->|[_ H]]; auto. exists [], split. auto.
    + cbn [map]. fold (lengths_of split). rewrite zcut_cons. split.
      * intros [H|H]; [left; lia|]. right. assert (L : (length (c :: w) <= k)%nat).
        { destruct H as (a & b & E & T). assert (0 <= total a); [|lia]. assert (F : Forall (fun x => 0 <= x) (a ++ b)).
          { rewrite <- E. unfold lengths_of. apply Forall_forall. intros x I. apply in_map_iff in I. destruct I as (y & <- & _). lia. }
          apply Forall_app in F. destruct F as [F _]. clear - F. induction F; cbn; [lia|]. fold (total l). lia. }
        split; auto. apply IH. rewrite Nat2Z.inj_sub by auto. exact H.
      * intros [->|[L H]]; [left; auto|]. right. apply IH in H. rewrite Nat2Z.inj_sub in H by auto. exact H.
Qed.
Lemma lengths_total split : total (lengths_of split) = Z.of_nat (length (concat split)).
Proof. induction split as [|w split IH]; auto. cbn [concat]. rewrite app_length. unfold lengths_of. cbn [filter]. destruct w; [exact IH|]. cbn [map total fold_right]. fold (total (lengths_of split)). unfold lengths_of in *. unfold total in *. rewrite IH. cbn [length]. lia. Qed.
Lemma lengths_positive split : Forall (fun x => 0 < x) (lengths_of split).
Proof. unfold lengths_of. apply Forall_forall. intros x I. apply in_map_iff in I. destruct I as (w & <- & I). apply filter_In in I. destruct w; [destruct I; discriminate|]. cbn [length]. lia. Qed.

(** * The result *)
Definition correct (heap : list (list Z)) (s : str) (out : list str * option exn) : Prop :=
  snd out = None /\ concat (fst out) = s /\ Forall (fun p : str => p <> []) (fst out) /\
  forall k, (0 < k < length s)%nat -> (cut (fst out) k <-> exists l, In l heap /\ zcut l (Z.of_nat k)).
Definition good (s : str) (l : list Z) : Prop := l <> [] /\ Forall (fun x => 0 < x) l /\ total l <= Z.of_nat (length s).
Lemma total_nonneg l : Forall (fun x => 0 < x) l -> 0 <= total l.
Proof. induction 1; cbn; [lia|]. fold (total l). lia. Qed.
Lemma correct_yield index heap heap' (s : str) out : 0 < index <= Z.of_nat (length s) ->
  (forall k, index < k -> ((exists l, In l heap /\ zcut l k) <-> exists l, In l heap' /\ zcut l (k - index))) ->
  (index < Z.of_nat (length s) -> exists l, In l heap /\ zcut l index) ->
  (forall l k, In l heap -> 0 < k < index -> ~ zcut l k) ->
  correct heap' (skipn (Z.to_nat index) s) out -> correct heap s (yield_str (firstn (Z.to_nat index) s) out).
Proof.
  intros I Later At Before (E & C & F & K). unfold yield_str. cbn [fst snd].
  assert (L : length (firstn (Z.to_nat index) s) = Z.to_nat index) by (rewrite firstn_length; lia).
  split; [exact E|]. split; [cbn [fst concat]; rewrite C; apply firstn_skipn|]. split; [constructor; auto; intros X; rewrite X in L; cbn in L; lia|].
  intros k Hk. cbn [fst]. rewrite cut_cons, L. destruct (lt_eq_lt_dec k (Z.to_nat index)) as [[H|H]|H].
  - split; [lia|]. intros (l & Il & Z). exfalso. apply (Before l (Z.of_nat k) Il); [lia|auto].
  - split; [|intros _; right; subst k; split; [lia|]; rewrite Nat.sub_diag; exists [], (fst out); auto]. intros _. subst k. rewrite Z2Nat.id by lia. apply At. lia.
  - split.
    + intros [->|[_ H']]; [lia|]. apply (Later (Z.of_nat k)); [lia|]. apply K in H'; [|rewrite skipn_length; lia]. rewrite Nat2Z.inj_sub, Z2Nat.id in H' by lia. exact H'.
    + intros H'. right. split; [lia|]. apply K; [rewrite skipn_length; lia|]. apply (Later (Z.of_nat k)) in H'; [|lia]. rewrite Nat2Z.inj_sub, Z2Nat.id by lia. exact H'.
Qed.
Lemma zcut_positive l k : Forall (fun x => 0 < x) l -> 0 < k -> zcut l k -> match l with x :: _ => x <= k | [] => False end.
Proof.
  intros F Hk (a & b & -> & T). destruct a as [|x a]; [cbn in T; lia|]. cbn [app] in *. inversion F; subst. cbn. fold (total a). apply Forall_app in H2. destruct H2 as [F2 _]. apply total_nonneg in F2. lia.
Qed.
Lemma apply_one_correct l : forall s, Forall (fun x => 0 < x) l -> total l <= Z.of_nat (length s) -> correct [l] s (apply_one l s).
Proof.
  induction l as [|x l IH]; intros s F T.
  - cbn [apply_one]. destruct s as [|c s].
    + split; [auto|]. split; auto. split; [constructor|]. cbn. intros k Hk. lia.
    + split; auto. split; [cbn; now rewrite app_nil_r|]. split; [constructor; auto; discriminate|]. intros k Hk. cbn [fst]. rewrite cut_cons, cut_nil. split.
      * lia.
      * intros (l & [<-|[]] & Z). apply zcut_nil in Z. lia.
  - inversion F as [|? ? Hx F']; subst. cbn [total fold_right] in T. fold (total l) in T. pose proof (total_nonneg l F'). cbn [apply_one]. assert (Z.of_nat (length s) <? x = false) as -> by lia.
    apply correct_yield with (heap' := [l]); [lia|..].
    + intros k Hk. split; intros (l' & [<-|[]] & Z); eexists; (split; [left; reflexivity|]).
      * apply zcut_cons in Z. destruct Z; [lia|auto].
      * apply zcut_cons. auto.
    + intros _. exists (x :: l). split; [left; auto|]. apply zcut_cons. right. replace (x - x) with 0 by lia. exists [], l. auto.
    + intros l' k [<-|[]] Hk Z. apply zcut_positive in Z; auto; lia.
    + apply IH; auto. rewrite skipn_length. lia.
Qed.

(** * The heap of arrays *)
Lemma heads_le a b x s y t : ints_ltb b a = false -> a = x :: s -> b = y :: t -> x <= y.
Proof. intros E -> ->. cbn in E. apply orb_false_iff in E. destruct E as [E _]. lia. Qed.
(** a list after the decrement: its first element may be zero *)
Definition half (l : list Z) : Prop := exists x t, l = x :: t /\ 0 <= x /\ Forall (fun y => 0 < y) t.
Lemma filter_perm {A} f (l l' : list A) : Permutation l l' -> Permutation (filter f l) (filter f l').
Proof. induction 1; cbn; auto; try (destruct (f x)); try (destruct (f y)); auto; try constructor; try (now constructor); eauto using Permutation_trans. Qed.
Lemma pop_zeros_spec n : forall heap, is_heap ints_ltb heap -> Forall half heap -> length (filter starts_zero heap) = n ->
  exists heap', pop_zeros n heap = Ok heap' /\ is_heap ints_ltb heap' /\ Forall (fun l => l <> [] /\ Forall (fun x => 0 < x) l) heap' /\
    (forall k, 0 < k -> ((exists l, In l heap' /\ zcut l k) <-> exists l, In l heap /\ zcut l k)) /\ (forall l, In l heap' -> exists l', In l' heap /\ total l <= total l').
Proof.
  induction n as [|n IH]; intros heap H F N.
  - exists heap. split; auto. split; auto. split.
    + apply Forall_forall. intros l I. rewrite Forall_forall in F. destruct (F l I) as (x & t & -> & Hx & Ft). split; [discriminate|]. constructor; auto.
      assert (starts_zero (x :: t) = false).
      { destruct (starts_zero (x :: t)) eqn:E; auto. exfalso. assert (X : In (x :: t) (filter starts_zero heap)) by (apply filter_In; auto). destruct (filter starts_zero heap); [contradiction|discriminate]. }
      cbn in H0. lia.
    + split; [tauto|]. intros l I. exists l. split; auto. lia.
  - cbn [pop_zeros]. pose proof (heappop_spec ints_ltb ints_weak heap H) as P. destruct (heappop ints_ltb heap) as [[m q]|]; [|subst heap; discriminate].
    destruct P as ((Im & Lm) & P & Hq). rewrite Forall_forall in F. destruct (F m Im) as (x & t & -> & Hx & Ft).
    assert (Z0 : x = 0).
    { destruct (filter starts_zero heap) as [|z zs] eqn:E; [discriminate|]. assert (X : In z (filter starts_zero heap)) by (rewrite E; left; auto). apply filter_In in X. destruct X as [Iz Sz].
      destruct (F z Iz) as (y & r & -> & Hy & _). cbn in Sz. apply Z.eqb_eq in Sz. subst y. pose proof (heads_le _ _ x t 0 r (Lm _ Iz) eq_refl eq_refl). lia. }
    subst x. assert (Nq : length (filter starts_zero q) = n).
    { apply (filter_perm starts_zero) in P. apply Permutation_length in P. cbn [filter starts_zero] in P. rewrite Z.eqb_refl in P. cbn [length] in P. lia. }
    assert (Fq : Forall half q) by (apply Forall_forall; intros l I; apply F; eapply Permutation_in; [symmetry; exact P|right; auto]).
    assert (Q : forall t', t = t' -> exists q', match 0 :: t' with _ :: (_ :: _) as rest => heappush ints_ltb q rest | _ => q end = q' /\ is_heap ints_ltb q' /\ Forall half q' /\ length (filter starts_zero q') = n /\
       (forall k, 0 < k -> ((exists l, In l q' /\ zcut l k) <-> exists l, In l heap /\ zcut l k)) /\ (forall l, In l q' -> exists l', In l' heap /\ total l <= total l')).
    { intros t' <-. destruct t as [|y t].
      - exists q. split; auto. split; auto. split; auto. split; auto. split.
        + intros k Hk. split; intros (l & I & Z); exists l; (split; [|auto]); [eapply Permutation_in; [symmetry; exact P|right; auto]|].
          eapply Permutation_in in I; [|exact P]. destruct I as [<-|I]; auto. exfalso. apply zcut_cons in Z. rewrite zcut_nil in Z. lia.
        + intros l I. exists l. split; [eapply Permutation_in; [symmetry; exact P|right; auto]|lia].
      - destruct (heappush_spec ints_ltb ints_weak q (y :: t) Hq) as [Pp Hp]. exists (heappush ints_ltb q (y :: t)). split; auto. split; auto. inversion Ft; subst. split; [|split; [|split]].
        + apply Forall_forall. intros l I. eapply Permutation_in in I; [|exact Pp]. destruct I as [<-|I]; [exists y, t; split; auto; split; [lia|auto]|]. rewrite Forall_forall in Fq. auto.
        + apply (filter_perm starts_zero) in Pp. apply Permutation_length in Pp. rewrite Pp. cbn [filter starts_zero]. assert (y =? 0 = false) as -> by lia. auto.
        + intros k Hk. split; intros (l & I & Z).
          * eapply Permutation_in in I; [|exact Pp]. destruct I as [<-|I].
            -- exists (0 :: y :: t). split; auto. apply zcut_cons. right. now rewrite Z.sub_0_r.
            -- exists l. split; auto. eapply Permutation_in; [symmetry; exact P|right; auto].
          * eapply Permutation_in in I; [|exact P]. destruct I as [<-|I].
            -- exists (y :: t). split; [eapply Permutation_in; [symmetry; exact Pp|left; auto]|]. apply zcut_cons in Z. rewrite Z.sub_0_r in Z. destruct Z; [lia|auto].
            -- exists l. split; auto. eapply Permutation_in; [symmetry; exact Pp|right; auto].
        + intros l I. eapply Permutation_in in I; [|exact Pp]. destruct I as [<-|I].
          * exists (0 :: y :: t). split; auto. cbn. lia.
          * exists l. split; [|lia]. eapply Permutation_in; [symmetry; exact P|right; auto]. }
    destruct (Q t eq_refl) as (q' & E & A & B & C & D & G). destruct (IH q' A B C) as (heap' & E' & H' & F' & K' & T'). exists heap'.
    split; [rewrite E; exact E'|]. split; auto. split; auto. split; [intros k Hk; rewrite K', D by auto; tauto|].
    intros l I. destruct (T' l I) as (l1 & I1 & L1). destruct (G l1 I1) as (l2 & I2 & L2). exists l2. split; auto. lia.
Qed.
Lemma combine_loop_correct fuel : forall heap s, (length s < fuel)%nat -> is_heap ints_ltb heap -> Forall (good s) heap -> correct heap s (combine_loop fuel heap s).
Proof.
  induction fuel as [|fuel IH]; intros heap s L H G; [lia|]. cbn [combine_loop]. destruct heap as [|l0 [|l1 heap]].
  - split; [auto|]. cbn [combine_last apply_one fst snd]. destruct s as [|c s]; split; auto; [|cbn; now rewrite app_nil_r|]; (split; [repeat constructor; discriminate|]); intros k Hk; cbn [length] in Hk; [lia|].
    cbn [fst]. rewrite cut_cons, cut_nil. split; [intros [?|[? ?]]; cbn [length] in *; lia|intros (l & [] & _)].
  - inversion G as [|? ? (N & P & T) _]; subst. destruct l0; [congruence|]. now apply apply_one_correct.
  - set (hp := l0 :: l1 :: heap) in *. assert (E0 : l0 = hd [] hp) by reflexivity. assert (Shape : hp <> []) by discriminate.
    inversion G as [|? ? (N & P & T) G']; subst x l. destruct l0 as [|index l0]; [congruence|]. inversion P as [|? ? Pi Pl]; subst.
    assert (Tl : 0 <= total l0) by (now apply total_nonneg). cbn [total fold_right] in T. fold (total l0) in T. assert (Z.of_nat (length s) <? index = false) as -> by lia.
    assert (Min : forall l x t, In l hp -> l = x :: t -> index <= x).
    { intros l x t I E. eapply heads_le; [|reflexivity|exact E]. exact (is_heap_least ints_ltb ints_weak hp (index :: l0) (l1 :: heap) H eq_refl l I). }
    rewrite Forall_forall in G.
    assert (Before : forall l k, In l hp -> 0 < k < index -> ~ zcut l k).
    { intros l k I Hk Z. destruct (G l I) as (Nl & Pp & _). apply zcut_positive in Z; auto; [|lia]. destruct l as [|x t]; auto. specialize (Min _ x t I eq_refl). lia. }
    assert (At : exists l, In l hp /\ zcut l index).
    { exists (index :: l0). split; [left; auto|]. apply zcut_cons. right. replace (index - index) with 0 by lia. exists [], l0. auto. }
    destruct (skipn (Z.to_nat index) s) as [|c rest] eqn:R.
    + assert (Ls : (length s - Z.to_nat index = 0)%nat) by (rewrite <- skipn_length, R; reflexivity).
      apply correct_yield with (heap' := []); auto; [lia| |].
      * intros k Hk. split; [|intros (l & [] & _)]. intros (l & I & Z). exfalso. destruct (G l I) as (_ & Pp & Tt). destruct Z as (a & b & -> & Tk). apply Forall_app in Pp. destruct Pp as [_ Pb]. apply total_nonneg in Pb.
        assert (total (a ++ b) = total a + total b) by (clear; induction a as [|x a IHa]; cbn; auto; fold (total (a ++ b)) (total a) (total b) in *; lia). lia.
      * rewrite R. split; auto. split; auto. split; [constructor|]. cbn. intros k Hk. lia.
    + assert (Hd : is_heap ints_ltb (map (decrement index) hp)) by (now apply decrement_heap).
      assert (Fd : Forall half (map (decrement index) hp)).
      { apply Forall_forall. intros l I. apply in_map_iff in I. destruct I as (l' & <- & I). destruct (G l' I) as (Nl & Pp & _). destruct l' as [|x t]; [congruence|]. inversion Pp; subst.
        exists (x - index), t. split; auto. split; auto. specialize (Min _ x t I eq_refl). lia. }
      destruct (pop_zeros_spec _ (map (decrement index) hp) Hd Fd eq_refl) as (heap' & E & H' & F' & K' & T').
      change (map (decrement index) hp) with (decrement index (index :: l0) :: decrement index l1 :: map (decrement index) heap) in E.
      change (map (decrement index) hp) with (decrement index (index :: l0) :: decrement index l1 :: map (decrement index) heap).
      rewrite E. rewrite <- R. apply correct_yield with (heap' := heap'); auto; [lia| |].
      * intros k Hk. rewrite (K' (k - index)) by lia. split.
        -- intros (l & I & Z). exists (decrement index l). split; [now apply in_map|]. destruct (G l I) as (Nl & _). destruct l as [|x t]; [congruence|]. cbn [decrement]. apply zcut_cons in Z. apply zcut_cons. destruct Z as [Z|Z]; [lia|]. right. replace (k - index - (x - index)) with (k - x) by lia. exact Z.
        -- intros (l & I & Z). apply in_map_iff in I. destruct I as (l' & <- & I). exists l'. split; auto. destruct (G l' I) as (Nl & _). destruct l' as [|x t]; [congruence|]. cbn [decrement] in Z. apply zcut_cons in Z. apply zcut_cons. destruct Z as [Z|Z]; [lia|]. right. replace (k - x) with (k - index - (x - index)) by lia. exact Z.
      * apply IH.
        -- rewrite R. assert (length (skipn (Z.to_nat index) s) = length (c :: rest)) by (now rewrite R). rewrite skipn_length in H0. lia.
        -- auto.
        -- apply Forall_forall. intros l I. rewrite Forall_forall in F'. destruct (F' l I) as [A B]. split; auto. split; auto.
           destruct (T' l I) as (l' & I' & L'). apply in_map_iff in I'. destruct I' as (l2 & <- & I2). destruct (G l2 I2) as (Nl & Pp & Tt). destruct l2 as [|x t]; [congruence|].
           cbn [decrement total fold_right] in L', Tt. fold (total t) in L', Tt. rewrite skipn_length. specialize (Min _ x t I2 eq_refl). lia.
Qed.

(** * Arrays that may be too long *)
Definition safe (s : str) (out : list str * option exn) : Prop :=
  (snd out = None \/ snd out = Some ValueError) /\ exists rest, concat (fst out) ++ rest = s /\ (snd out = None -> rest = []).
Lemma safe_yield index s out : safe (skipn (Z.to_nat index) s) out -> safe s (yield_str (firstn (Z.to_nat index) s) out).
Proof.
  intros (E & rest & C & N). split; [exact E|]. exists rest. unfold yield_str. cbn [fst snd concat]. split; auto. rewrite <- app_assoc, C. apply firstn_skipn.
Qed.
Lemma apply_one_safe l : forall s, safe s (apply_one l s).
Proof.
  induction l as [|x l IH]; intros s; cbn [apply_one].
  - split; [left; auto|]. exists []. destruct s; cbn; rewrite ?app_nil_r; auto.
  - destruct (Z.of_nat (length s) <? x); [|now apply safe_yield]. split; [right; auto|]. exists s. split; auto. discriminate.
Qed.
Lemma combine_loop_safe fuel : forall heap s, (length s < fuel)%nat -> is_heap ints_ltb heap -> Forall (fun l => l <> [] /\ Forall (fun x => 0 < x) l) heap -> safe s (combine_loop fuel heap s).
Proof.
  induction fuel as [|fuel IH]; intros heap s L H G; [lia|]. cbn [combine_loop]. destruct heap as [|l0 [|l1 heap]].
  - apply (apply_one_safe []).
  - destruct l0; apply apply_one_safe.
  - set (hp := l0 :: l1 :: heap) in *. inversion G as [|? ? (N & P) G']; subst x l. destruct l0 as [|index l0]; [congruence|]. inversion P as [|? ? Pi Pl]; subst.
    destruct (Z.of_nat (length s) <? index) eqn:Lt; [split; [right; auto|]; exists s; split; auto; discriminate|].
    assert (Min : forall l x t, In l hp -> l = x :: t -> index <= x).
    { intros l x t I E. eapply heads_le; [|reflexivity|exact E]. exact (is_heap_least ints_ltb ints_weak hp (index :: l0) (l1 :: heap) H eq_refl l I). }
    rewrite Forall_forall in G. destruct (skipn (Z.to_nat index) s) as [|c rest] eqn:R.
    + apply safe_yield. rewrite R. split; [left; auto|]. exists []. auto.
    + assert (Hd : is_heap ints_ltb (map (decrement index) hp)) by (now apply decrement_heap).
      assert (Fd : Forall half (map (decrement index) hp)).
      { apply Forall_forall. intros l I. apply in_map_iff in I. destruct I as (l' & <- & I). destruct (G l' I) as (Nl & Pp). destruct l' as [|x t]; [congruence|]. inversion Pp; subst.
        exists (x - index), t. split; auto. split; auto. specialize (Min _ x t I eq_refl). lia. }
      destruct (pop_zeros_spec _ (map (decrement index) hp) Hd Fd eq_refl) as (heap' & E & H' & F' & K' & T').
      change (map (decrement index) hp) with (decrement index (index :: l0) :: decrement index l1 :: map (decrement index) heap) in E.
      change (map (decrement index) hp) with (decrement index (index :: l0) :: decrement index l1 :: map (decrement index) heap).
      rewrite E. rewrite <- R. apply safe_yield. apply IH; auto. assert (X : length (skipn (Z.to_nat index) s) = length (c :: rest)) by (now rewrite R). rewrite skipn_length in *. cbn [length] in X. lia.
Qed.
