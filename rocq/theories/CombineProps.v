(** The property C48 (combine_splits). *)
From Verif Require Import PyBaseProof HeapModel HeapSpec HeapProof CombineModel CombineSpec CombineProof.

(** Every array concatenates to s: the result is s, in non-empty pieces, cut exactly where some
    array cuts it.  (Only the lengths matter, and an array may stop before the end of s.) *)
Theorem C48_combine_lengths : forall (s : str) (arrays : list (list str)), (forall array, In array arrays -> (length (concat array) <= length s)%nat) ->
  exists pieces, combine_splits s arrays = (pieces, None) /\ concat pieces = s /\ Forall (fun p : str => p <> []) pieces /\
    forall k, (0 < k < length s)%nat -> (cut pieces k <-> exists array, In array arrays /\ cut array k).
Proof.
  intros s arrays B. unfold combine_splits. set (ls := filter _ (map lengths_of arrays)).
  destruct (heapify_spec ints_ltb ints_weak ls) as [P H].
  assert (I : forall l, In l (heapify ints_ltb ls) <-> l <> [] /\ exists array, In array arrays /\ l = lengths_of array).
  { intros l. rewrite P. unfold ls. rewrite filter_In, in_map_iff. split.
    - intros [(a & <- & Ia) F]. split; [destruct (lengths_of a); [discriminate|discriminate]|eauto].
    - intros [N (a & Ia & ->)]. split; [eauto|]. destruct (lengths_of a); [now destruct N|reflexivity]. }
  destruct (combine_loop_correct (S (length s)) (heapify ints_ltb ls) s) as (E & C & F & K); auto.
  { apply Forall_forall. intros l Il. apply I in Il. destruct Il as [N (a & Ia & ->)]. split; auto. split; [apply lengths_positive|]. rewrite lengths_total. specialize (B a Ia). lia. }
  destruct (combine_loop _ _ s) as [pieces o]. cbn [fst snd] in *. subst o. exists pieces. split; auto. split; auto. split; auto.
  intros k Hk. rewrite (K k Hk). split.
  - intros (l & Il & Z). apply I in Il. destruct Il as [N (a & Ia & ->)]. exists a. split; auto. now apply lengths_cut.
  - intros (a & Ia & Ca). exists (lengths_of a). apply lengths_cut in Ca. split; auto. apply I. split; [|eauto]. intros X. rewrite X in Ca. apply zcut_nil in Ca. lia.
Qed.
Print Assumptions C48_combine_lengths.
Theorem C48_combine : forall (s : str) (arrays : list (list str)), (forall array, In array arrays -> concat array = s) ->
  exists pieces, combine_splits s arrays = (pieces, None) /\ concat pieces = s /\ Forall (fun p : str => p <> []) pieces /\
    forall k, (0 < k < length s)%nat -> (cut pieces k <-> exists array, In array arrays /\ cut array k).
Proof. intros s arrays H. apply C48_combine_lengths. intros a I. rewrite (H a I). auto. Qed.
Print Assumptions C48_combine.
(** A single array that is longer than the string is rejected after the pieces that fit ... *)
Theorem C48_too_long : forall (s : str) (array : list str), (length s < length (concat array))%nat ->
  exists pieces, combine_splits s [array] = (pieces, Some ValueError).
Proof.
  intros s array L. unfold combine_splits. cbn [map filter]. assert (T : Z.of_nat (length s) < total (lengths_of array)) by (rewrite lengths_total; lia).
  assert (P : Forall (fun x => 0 < x) (lengths_of array)) by apply lengths_positive. revert T P. generalize (lengths_of array). clear. intros l T P.
  destruct l as [|x l]; [cbn in T; lia|]. change (heapify ints_ltb [x :: l]) with [x :: l]. cbn [combine_loop combine_last].
  revert T P. generalize (x :: l). clear. intros l. revert s. induction l as [|x l IH]; intros s T P; [cbn in T; lia|]. cbn [total fold_right] in T. fold (total l) in T. inversion P; subst. cbn [apply_one].
  destruct (Z.of_nat (length s) <? x) eqn:E; [eauto|]. destruct (IH (skipn (Z.to_nat x) s)) as [p Ep]; auto; [rewrite skipn_length; lia|]. rewrite Ep. eexists. reflexivity.
Qed.
Print Assumptions C48_too_long.
(** Whatever the arrays, nothing but ValueError is raised, only if an array is too long, and after
    a beginning of s. *)
Theorem C48_errors : forall (s : str) (arrays : list (list str)), let (pieces, error) := combine_splits s arrays in
  match error with
  | None => concat pieces = s
  | Some e => e = ValueError /\ (exists rest, concat pieces ++ rest = s) /\ exists array, In array arrays /\ (length s < length (concat array))%nat
  end.
Proof.
  intros s arrays. destruct (combine_splits s arrays) as [pieces error] eqn:E.
  assert (S : safe s (pieces, error)).
  { rewrite <- E. unfold combine_splits. set (ls := filter _ (map lengths_of arrays)). destruct (heapify_spec ints_ltb ints_weak ls) as [P H]. apply combine_loop_safe; auto.
    apply Forall_forall. intros l Il. rewrite P in Il. unfold ls in Il. apply filter_In in Il. destruct Il as [Il F]. apply in_map_iff in Il. destruct Il as (a & <- & Ia). split; [destruct (lengths_of a); discriminate|apply lengths_positive]. }
  destruct S as (Ex & rest & C & N). cbn [fst snd] in *. destruct error as [e|].
  - destruct Ex as [Ex|Ex]; [discriminate|]. injection Ex as ->. split; auto. split; [eauto|].
    destruct (existsb (fun a => length s <? length (concat a))%nat arrays) eqn:X; [apply existsb_exists in X; destruct X as (a & Ia & La); exists a; split; auto; now apply Nat.ltb_lt|].
    exfalso. destruct (C48_combine_lengths s arrays) as (pieces' & E' & _); [|congruence]. intros a Ia. destruct (le_gt_dec (length (concat a)) (length s)) as [|G]; auto. exfalso.
    assert (existsb (fun a => length s <? length (concat a))%nat arrays = true); [|congruence]. apply existsb_exists. exists a. split; auto. apply Nat.ltb_lt. exact G.
  - rewrite (N eq_refl), app_nil_r in C. exact C.
Qed.
Print Assumptions C48_errors.
Example C48_errors_witness : combine_splits (u "ab") [[u "abc"]; [u "abcd"]] = ([], Some ValueError) /\ combine_splits (u "abc") [[u "a"; u "bcd"]; [u "ab"; u "cde"]] = ([u "a"; u "b"], Some ValueError).
Proof. split; reflexivity. Qed.
(** ... but of two arrays, one that is too long may go unnoticed. *)
Theorem C48_too_long_refuted : combine_splits (u "ab") [[u "ab"]; [u "ab"; u "c"]] = ([u "ab"], None).
Proof. reflexivity. Qed.
Print Assumptions C48_too_long_refuted.
Example C48_witness : combine_splits (u "abcde") [[u "abcd"; u "e"]; [u "a"; u ""; u "bcde"]] = ([u "a"; u "bcd"; u "e"], None) /\
  combine_splits (u "abcdef") [[u "ab"; u "cdef"]; [u "abc"; u "def"]; [u "abcdef"]; [u "ab"; u "cd"; u "ef"]] = ([u "ab"; u "c"; u "d"; u "ef"], None).
Proof. split; reflexivity. Qed.
