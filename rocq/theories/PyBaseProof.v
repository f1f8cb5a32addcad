(** Lemmas about the Python vocabulary: list update, stable sort, slices. *)
From Verif Require Import PyBase.
Require Import ZifyBool ZifyNat.

Lemma upd_length {A} (l : list A) i x : length (upd l i x) = length l.
Proof. revert i; induction l as [|a l IH]; intros [|i]; simpl; auto. Qed.

Lemma nth_upd_same {A} (l : list A) i x d : i < length l -> nth i (upd l i x) d = x.
Proof. revert i; induction l as [|a l IH]; intros [|i] H; simpl in *; try lia; auto. apply IH; lia. Qed.

Lemma nth_upd_other {A} (l : list A) i j x d : i <> j -> nth j (upd l i x) d = nth j l d.
Proof.
  revert i j; induction l as [|a l IH]; intros [|i] [|j] H; simpl; try lia; auto; try (apply IH; lia).
Qed.

Lemma nth_upd {A} (l : list A) i j x d : i < length l ->
  nth j (upd l i x) d = if i =? j then x else nth j l d.
Proof.
  intros H. destruct (Nat.eqb_spec i j) as [->|Hn]; [apply nth_upd_same; auto | apply nth_upd_other; auto].
Qed.

Lemma upd_upd_same {A} (l : list A) i x y : upd (upd l i x) i y = upd l i y.
Proof. revert i; induction l as [|a l IH]; intros [|i]; simpl; auto. f_equal; auto. Qed.

Lemma upd_nth {A} (l : list A) i d : upd l i (nth i l d) = l.
Proof. revert i; induction l as [|a l IH]; intros [|i]; simpl; auto. f_equal; auto. Qed.

Lemma upd_perm {A} (l : list A) j x d : j < length l ->
  Permutation (nth j l d :: upd l j x) (x :: l).
Proof.
  revert j; induction l as [|a l IH]; intros [|j] H; simpl in *; try lia.
  - apply perm_swap.
  - rewrite perm_swap. rewrite (IH j) by lia. apply perm_swap.
Qed.

Lemma upd_move_perm {A} (l : list A) i j x d : i <> j -> i < length l -> j < length l ->
  Permutation (upd (upd l i (nth j l d)) j x) (upd l i x).
Proof.
  revert i j; induction l as [|a l IH]; intros [|i] [|j] Hn Hi Hj; simpl in *; try lia.
  - apply upd_perm; lia.
  - apply Permutation_cons_inv with (a := nth i l d).
    transitivity (x :: a :: l).
    + etransitivity; [apply perm_swap|]. constructor. apply upd_perm; lia.
    + symmetry. etransitivity; [apply perm_swap|]. etransitivity; [|apply perm_swap].
      constructor. apply upd_perm; lia.
  - constructor. apply IH; lia.
Qed.

Lemma nth_error_upd {A} (l : list A) i j x :
  nth_error (upd l i x) j = if i =? j then (if i <? length l then Some x else None) else nth_error l j.
Proof.
  revert i j; induction l as [|a l IH]; intros [|i] [|j]; simpl; auto.
  - destruct (i =? j); auto.
  - rewrite IH. destruct (i =? j); auto.
Qed.
Lemma nth_error_ext {A} (l1 l2 : list A) : (forall i, nth_error l1 i = nth_error l2 i) -> l1 = l2.
Proof.
  revert l2; induction l1 as [|a l1 IH]; intros [|b l2] H; auto.
  - specialize (H 0); discriminate.
  - specialize (H 0); discriminate.
  - f_equal; [specialize (H 0); simpl in H; congruence|]. apply IH. intros i. apply (H (S i)).
Qed.

Section SortFacts.
  Context {A : Type} (ltb : A -> A -> bool).

  Lemma insert_perm x l : Permutation (insert ltb x l) (x :: l).
  Proof.
    induction l as [|y l IH]; simpl; auto.
    destruct (ltb y x); auto. rewrite IH. apply perm_swap.
  Qed.
  Lemma sort_perm l : Permutation (sort ltb l) l.
  Proof. induction l as [|x l IH]; simpl; auto. rewrite insert_perm. auto. Qed.
  Lemma sort_rev_perm l : Permutation (sort_rev ltb l) l.
  Proof. unfold sort_rev. rewrite <- Permutation_rev, sort_perm. symmetry; apply Permutation_rev. Qed.

  Hypothesis W : strict_weak ltb.
  Lemma sw_irrefl a : ltb a a = false. Proof. exact (proj1 W a). Qed.
  Lemma sw_asym a b : ltb a b = true -> ltb b a = false. Proof. exact (proj1 (proj2 W) a b). Qed.
  Lemma sw_le_trans a b c : ltb b a = false -> ltb c b = false -> ltb c a = false.
  Proof. exact (proj2 (proj2 W) a b c). Qed.
  Lemma sw_trans a b c : ltb a b = true -> ltb b c = true -> ltb a c = true.
  Proof.
    intros H1 H2. destruct (ltb a c) eqn:E; auto.
    apply sw_asym in H2 as H3.
    pose proof (sw_le_trans c a b) as K.
    (* c <= a and a <= ... *)
    assert (ltb b a = false) by (apply sw_asym; auto).
    (* ltb a c = false : c <= a ; ltb b a=false: a <= b ; so c <= b : ltb b c = false *)
    rewrite (K E H) in H2. discriminate.
  Qed.

  Lemma insert_sorted x l : ascending ltb l -> ascending ltb (insert ltb x l).
  Proof.
    unfold ascending. induction l as [|y l IH]; simpl; intros H.
    - repeat constructor.
    - inversion H as [|? ? Hs Hf]; subst. destruct (ltb y x) eqn:E.
      + constructor; auto. rewrite Forall_forall in *. intros z Hz.
        apply (Permutation_in _ (insert_perm x l)) in Hz. destruct Hz as [<-|Hz]; auto.
        apply sw_asym; auto.
      + constructor; auto. constructor; auto.
        rewrite Forall_forall in *. intros z Hz. apply sw_le_trans with y; auto.
  Qed.
  Lemma sort_sorted l : ascending ltb (sort ltb l).
  Proof. induction l as [|x l IH]; simpl; [constructor | apply insert_sorted; auto]. Qed.

  Lemma insert_min x l : Forall (fun y => ltb y x = false) l -> insert ltb x l = x :: l.
  Proof. destruct l as [|y l]; simpl; auto. intros H. inversion H; subst. rewrite H2. auto. Qed.
  Lemma sort_ascending_id l : ascending ltb l -> sort ltb l = l.
  Proof.
    induction l as [|x l IH]; simpl; intros H; auto. inversion H; subst.
    rewrite IH by auto. apply insert_min; auto.
  Qed.
End SortFacts.

Section TotalFacts.
  Context {A : Type} (ltb : A -> A -> bool) (T : strict_total ltb).
  Lemma ascending_unique l1 l2 : ascending ltb l1 -> ascending ltb l2 -> Permutation l1 l2 -> l1 = l2.
  Proof.
    unfold ascending. revert l2; induction l1 as [|x l1 IH]; intros l2 H1 H2 P.
    - apply Permutation_nil in P. auto.
    - destruct l2 as [|y l2]; [apply Permutation_sym, Permutation_nil in P; discriminate|].
      inversion H1; inversion H2; subst. rewrite Forall_forall in *.
      assert (x = y) as ->.
      { assert (In x (y :: l2)) as I1 by (apply (Permutation_in _ P); left; auto).
        assert (In y (x :: l1)) as I2 by (apply (Permutation_in _ (Permutation_sym P)); left; auto).
        destruct I1 as [->|I1]; auto. destruct I2 as [->|I2]; auto.
        apply T; auto. }
      f_equal. apply IH; auto. apply Permutation_cons_inv in P; auto.
  Qed.
  Lemma sort_unique l l' : Permutation l l' -> sort ltb l = sort ltb l'.
  Proof.
    intros P. apply ascending_unique; try (apply sort_sorted, T).
    rewrite !sort_perm; auto.
  Qed.
  Lemma sort_rev_eq l : sort_rev ltb l = rev (sort ltb l).
  Proof. unfold sort_rev. f_equal. apply sort_unique. symmetry; apply Permutation_rev. Qed.
End TotalFacts.

(** Slices *)
Lemma flat_map_nth_range {A} (l : list A) a k : a + k <= length l ->
  flat_map (fun i => match nth_error l (Z.to_nat i) with Some x => [x] | None => [] end)
    (map (fun j => (Z.of_nat a + Z.of_nat j * 1)%Z) (seq 0 k)) = firstn k (skipn a l).
Proof.
  intros H.
  assert (G : forall s, s + k <= length l - a ->
    flat_map (fun i => match nth_error l (Z.to_nat i) with Some x => [x] | None => [] end)
    (map (fun j => (Z.of_nat a + Z.of_nat j * 1)%Z) (seq s k)) = firstn k (skipn (a + s) l)).
  { induction k as [|k IH]; intros s Hs; simpl seq; simpl map; simpl flat_map; auto.
    rewrite IH by lia.
    replace (Z.to_nat (Z.of_nat a + Z.of_nat s * 1)) with (a + s) by lia.
    destruct (nth_error l (a + s)) as [x|] eqn:E.
    - assert (Hx : skipn (a + s) l = x :: skipn (a + S s) l).
      { replace (a + S s) with (S (a + s)) by lia.
        clear -E. revert E. generalize (a + s). intros n. revert l; induction n as [|n IH]; intros [|y l]; simpl; try discriminate; intros E.
        - inversion E; auto.
        - apply IH in E. rewrite E. auto. }
      rewrite Hx. reflexivity.
    - apply nth_error_None in E. lia. }
  rewrite G by lia. f_equal. f_equal. lia.
Qed.

Lemma py_slice_unit {A} (l : list A) (s : slice) :
  sl_step s = None \/ sl_step s = Some 1%Z ->
  let n := Z.of_nat (length l) in
  let a := slice_start n 1 (sl_start s) in
  let b := slice_stop n 1 (sl_stop s) in
  py_slice l s = Ok (firstn (Z.to_nat (b - a)) (skipn (Z.to_nat a) l)).
Proof.
  intros Hs n a b. unfold py_slice.
  replace (match sl_step s with None => 1%Z | Some k => k end) with 1%Z by (destruct Hs as [->| ->]; auto).
  simpl Z.eqb. cbv iota. f_equal. fold n. fold a. fold b.
  assert (0 <= a <= n)%Z as Ha.
  { unfold a, slice_start, n. simpl. destruct (sl_start s); [destruct (_ <? 0)%Z eqn:?|]; lia. }
  assert (0 <= b <= n)%Z as Hb.
  { unfold b, slice_stop, n. simpl. destruct (sl_stop s); [destruct (_ <? 0)%Z eqn:?|]; lia. }
  unfold py_range, range_len. simpl (0 <? 1)%Z. cbv iota.
  destruct (a <? b)%Z eqn:E.
  - rewrite Z.div_1_r. replace (Z.to_nat (b - a - 1 + 1)) with (Z.to_nat (b - a)) by lia.
    rewrite <- (flat_map_nth_range l (Z.to_nat a) (Z.to_nat (b - a))) by lia.
    f_equal. apply map_ext. intros j. rewrite Z2Nat.id; lia.
  - replace (Z.to_nat (b - a)) with 0 by lia. reflexivity.
Qed.

(** the integers with their usual order meet the hypotheses of the theorems *)
Lemma Z_strict_total : strict_total Z.ltb.
Proof. unfold strict_total, strict_weak. repeat split; intros; lia. Qed.
Lemma Z_decides_eq : decides_eq Z.eqb.
Proof. intros a b. lia. Qed.
