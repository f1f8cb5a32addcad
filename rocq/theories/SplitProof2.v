(** multisplit, multipartition and multistrip in terms of SplitSpec.v. *)
From Verif Require Import SplitModel SplitSpec SplitProof RegexProof PyBaseProof PyStrProof.

(** ---- mirror images ---- *)
Lemma in_map_rev (seps : list str) w : In w (map (@rev chr) seps) <-> In (rev w) seps.
Proof.
  rewrite in_map_iff. split.
  - intros (x & <- & I). now rewrite rev_involutive.
  - intros I. exists (rev w). now rewrite rev_involutive.
Qed.
Lemma firstn_rev_skipn {A} (s : list A) i : firstn (length s - i) (rev s) = rev (skipn i s).
Proof. rewrite <- (firstn_skipn i s) at 2. rewrite rev_app_distr, firstn_app, rev_length, skipn_length, Nat.sub_diag. cbn.
  rewrite app_nil_r. apply firstn_all2. rewrite rev_length, skipn_length. lia. Qed.
Lemma sep_ends_rev seps s i : sep_ends seps (rev s) i -> sep_at (map (@rev chr) seps) s i.
Proof.
  intros (w & t & I & E & _). rewrite rev_length, firstn_rev_skipn in E. exists (rev w), (rev t). split.
  - rewrite in_map_rev. now rewrite rev_involutive.
  - apply (f_equal (@rev chr)) in E. rewrite rev_involutive, rev_app_distr in E. exact E.
Qed.
Lemma sep_ends_rev0 seps s : sep_at (map (@rev chr) seps) s 0 <-> sep_ends seps (rev s) 0.
Proof.
  split; [|apply sep_ends_rev]. intros (w & t & I & E). cbn in E. subst s. exists (rev w), (rev t). rewrite in_map_rev in I. split; auto.
  rewrite rev_app_distr, Nat.sub_0_r, firstn_all. split; auto. lia.
Qed.
Lemma sep_free_rev seps s : sep_free (map (@rev chr) seps) s -> sep_free seps (rev s).
Proof.
  intros F i (w & t & I & E). pose proof (firstn_skipn i (rev s)) as Q. rewrite E in Q.
  apply (f_equal (@rev chr)) in Q. rewrite rev_involutive, !rev_app_distr, <- app_assoc in Q.
  apply (F (length (rev t) + 0)). rewrite <- Q. apply sep_at_skip. exists (rev w), (rev (firstn i (rev s))). split; auto.
  rewrite in_map_rev. now rewrite rev_involutive.
Qed.
Lemma longest_rev seps w t : longest (map (@rev chr) seps) w t -> rlongest seps (rev t) (rev w).
Proof.
  intros [I M]. split; [now rewrite <- in_map_rev|]. intros w' t' I' E.
  rewrite rev_length, <- (rev_length w'). apply (M (rev w') (rev t')).
  - rewrite in_map_rev. now rewrite rev_involutive.
  - apply (f_equal (@rev chr)) in E. now rewrite !rev_app_distr, !rev_involutive in E.
Qed.
Lemma run_rev seps w t : run (map (@rev chr) seps) w t -> rrun seps (rev t) (rev w).
Proof.
  induction 1 as [w t L N|w w' t L R IH].
  - apply rrun_first; [now apply longest_rev|]. now rewrite <- sep_ends_rev0.
  - rewrite rev_app_distr. apply rrun_more; auto. rewrite <- rev_app_distr. now apply longest_rev.
Qed.
Lemma one_split_rev separate seps w t : one_split separate (map (@rev chr) seps) w t -> one_rsplit separate seps (rev t) (rev w).
Proof. destruct separate; [apply longest_rev|apply run_rev]. Qed.
Lemma splits_rev separate seps n s l y : splits separate (map (@rev chr) seps) n s l y ->
  exists l' x, rsplits separate seps n (rev s) l' x /\ alternating l' x = rev (map (@rev chr) (alternating l y)) /\
    map fst l' ++ [x] = rev (map (@rev chr) (map fst l ++ [y])).
Proof.
  induction 1 as [s|n s F|n x w t l y Hn Lf O Sp IH].
  - exists [], (rev s). repeat split. apply rsplit_limit.
  - exists [], (rev s). repeat split. apply rsplit_none. now apply sep_free_rev.
  - destruct IH as (l' & x' & Rs & Ea & Ef). exists (l' ++ [(x', rev w)]), (rev x).
    rewrite !rev_app_distr, <- app_assoc. split; [|split].
    + apply rsplit_cut; auto.
      * intros i Hi H. rewrite rev_length in Hi. apply (Lf i Hi). apply sep_ends_rev. now rewrite !rev_app_distr, <- app_assoc.
      * now apply one_split_rev.
    + unfold alternating in *. rewrite flat_map_app. cbn. rewrite Ea || (rewrite <- app_assoc; cbn; change [x'; rev w; rev x] with ([x'] ++ [rev w; rev x]); rewrite app_assoc, Ea).
      rewrite <- !app_assoc. reflexivity.
    + rewrite map_app. cbn. rewrite Ef. reflexivity.
Qed.

(** and back *)
Lemma sep_at_rev seps s i : nonempty seps -> sep_at (map (@rev chr) seps) s i -> sep_ends seps (rev s) i.
Proof.
  intros NE (w & t & I & E). rewrite in_map_rev in I. exists (rev w), (rev t). split; auto. rewrite rev_length, firstn_rev_skipn, E.
  split; [apply rev_app_distr|]. destruct (Nat.le_gt_cases i (length s)) as [|G]; auto. exfalso.
  rewrite skipn_all2 in E by lia. symmetry in E. apply app_eq_nil in E. destruct E as [-> _]. exact (nonempty_in _ _ NE I eq_refl).
Qed.
Lemma rlongest_rev seps t w : rlongest seps t w -> longest (map (@rev chr) seps) (rev w) (rev t).
Proof.
  intros [I M]. split; [rewrite in_map_rev; now rewrite rev_involutive|]. intros w' t' I' E. rewrite in_map_rev in I'.
  rewrite rev_length, <- (rev_length w'). apply (M (rev w') (rev t')); auto.
  apply (f_equal (@rev chr)) in E. now rewrite !rev_app_distr, !rev_involutive in E.
Qed.
Lemma rrun_rev seps t w : nonempty seps -> rrun seps t w -> run (map (@rev chr) seps) (rev w) (rev t).
Proof.
  intros NE. induction 1 as [t w L N|t w w' L R IH].
  - apply run_last; [now apply rlongest_rev|]. intros H. apply N. apply sep_at_rev in H; auto. now rewrite rev_involutive in H.
  - rewrite rev_app_distr. apply run_more; auto. rewrite <- rev_app_distr. now apply rlongest_rev.
Qed.
Lemma rsplits_rev separate seps n s l x : nonempty seps -> rsplits separate seps n s l x ->
  exists l' y, splits separate (map (@rev chr) seps) n (rev s) l' y /\ alternating l' y = rev (map (@rev chr) (alternating l x)).
Proof.
  intros NE. induction 1 as [s|n s F|n x w t y l Hn Lf O Sp IH].
  - exists [], (rev s). split; auto. apply split_limit.
  - exists [], (rev s). split; auto. apply split_none. intros i (w & t & I & E).
    pose proof (firstn_skipn i (rev s)) as Q. rewrite E in Q. apply (f_equal (@rev chr)) in Q. rewrite rev_involutive, !rev_app_distr, <- app_assoc in Q.
    apply (F (length (rev t) + 0)). rewrite <- Q. apply sep_at_skip. rewrite in_map_rev in I. eexists _, _. split; [exact I|reflexivity].
  - destruct IH as (l' & y' & Rs & Ea). exists ((rev x, rev w) :: l'), y'. rewrite !rev_app_distr, <- app_assoc. split.
    + apply split_cut; auto.
      * intros i Hi H. rewrite rev_length in Hi. apply (Lf i Hi).
        replace (t ++ w ++ x) with (rev (rev x ++ rev w ++ rev t)) by (now rewrite !rev_app_distr, !rev_involutive, <- app_assoc).
        now apply sep_at_rev.
      * destruct separate; [now apply rlongest_rev|now apply rrun_rev].
    + unfold alternating in *. cbn [flat_map app fst snd]. rewrite Ea. rewrite flat_map_app. cbn.
      rewrite !map_app, !rev_app_distr. cbn. reflexivity.
Qed.
Lemma alternating_inj l y l' y' : alternating l y = alternating l' y' -> l = l' /\ y = y'.
Proof.
  unfold alternating. revert l'. induction l as [|[a b] l IH]; intros [|[c d] l'] E; cbn in *; try discriminate.
  - injection E as ->. auto.
  - injection E as -> -> E. destruct (IH _ E). subst. auto.
Qed.
Lemma rsplits_fun separate seps n s l y l' y' : nonempty seps -> rsplits separate seps n s l y -> rsplits separate seps n s l' y' -> l = l' /\ y = y'.
Proof.
  intros NE H1 H2. apply rsplits_rev in H1, H2; auto. destruct H1 as (l1 & y1 & S1 & E1), H2 as (l2 & y2 & S2 & E2).
  destruct (splits_fun _ _ _ _ _ _ S1 _ _ _ eq_refl S2) as [-> ->]. rewrite E1 in E2.
  apply alternating_inj. apply (f_equal (@rev str)) in E2. rewrite !rev_involutive in E2.
  assert (Inj : forall a b : list str, map (@rev chr) a = map (@rev chr) b -> a = b).
  { clear. induction a as [|x a IH]; intros [|z b] E; try discriminate; auto. cbn in E. injection E as E1 E2.
    f_equal; auto. apply (f_equal (@rev chr)) in E1. now rewrite !rev_involutive in E1. }
  now apply Inj.
Qed.

(** ---- the table of reversed separators ---- *)
Lemma strs_eqb_eq a : forall b, strs_eqb a b = true -> a = b.
Proof.
  induction a as [|x a IH]; intros [|y b]; cbn; try discriminate; auto. intros H. apply andb_true_iff in H. destruct H as [H1 H2].
  apply str_eqb_eq in H1. f_equal; auto.
Qed.
Definition subset (a b : list str) : bool := forallb (fun w => existsb (str_eqb w) b) a.
Lemma subset_spec a b : subset a b = true -> forall w, In w a -> In w b.
Proof.
  unfold subset. rewrite forallb_forall. intros H w I. specialize (H w I). apply existsb_exists in H.
  destruct H as (x & J & E). apply str_eqb_eq in E. now subst.
Qed.
Lemma reverse_separators_same l : same_seps (reverse_separators l) (map (@rev chr) l).
Proof.
  unfold reverse_separators.
  assert (T : forallb (fun kv => subset (snd kv) (map (@rev chr) (fst kv)) && subset (map (@rev chr) (fst kv)) (snd kv)) reversed_builtin_separators = true)
    by (vm_compute; reflexivity).
  assert (G : forall tb, forallb (fun kv => subset (snd kv) (map (@rev chr) (fst kv)) && subset (map (@rev chr) (fst kv)) (snd kv)) tb = true ->
     forall v, lookup_separators tb l = Some v -> same_seps v (map (@rev chr) l)).
  { clear T. induction tb as [|[k v] tb IH]; cbn [forallb lookup_separators]; intros H v' E; [discriminate|].
    apply andb_true_iff in H. destruct H as [H1 H2]. apply andb_true_iff in H1. destruct H1 as [H1 H3]. cbn [fst snd] in *.
    destruct (strs_eqb k l) eqn:Q; [|eauto]. injection E as <-. apply strs_eqb_eq in Q. subst k.
    intros w. split; apply subset_spec; auto. }
  specialize (G _ T). destruct (lookup_separators reversed_builtin_separators l) as [v|]; auto. intros w. tauto.
Qed.
Lemma nonempty_rev seps : nonempty seps -> nonempty (map (@rev chr) seps).
Proof.
  unfold nonempty. intros H. apply Forall_forall. intros w I. rewrite in_map_rev in I. rewrite Forall_forall in H.
  intros ->. exact (H _ I eq_refl).
Qed.
Lemma nonempty_same a b : same_seps a b -> nonempty a -> nonempty b.
Proof. unfold nonempty. rewrite !Forall_forall. intros S H w I. apply H. now apply S. Qed.

(** ---- what multisplit returns ---- *)
Definition present (keep : keep_mode) (l : list (str * str)) (y : str) : list item :=
  match keep with
  | KeepFalse => map Str (map fst l ++ [y])
  | KeepTrue => map Str (map (fun p => fst p ++ snd p) l ++ [y])
  | Alternating => map Str (alternating l y)
  | AsPairs => map (fun p => Two (fst p) (snd p)) (l ++ [(y, [])])
  end.
Definition limit_of (maxsplit : option Z) : option nat :=
  match maxsplit with
  | None => None
  | Some m => if (m =? -1)%Z then None else Some (Z.to_nat m)
  end.
Lemma alternating_odd l y : Nat.odd (length (alternating l y)) = true.
Proof.
  unfold alternating. rewrite app_length. cbn. replace (length (flat_map (fun q : str * str => [fst q; snd q]) l)) with (2 * length l).
  - rewrite Nat.add_1_r, Nat.odd_succ. apply Nat.even_spec. exists (length l). lia.
  - induction l; cbn in *; lia.
Qed.
Lemma in_pairs_alternating l y : in_pairs (alternating l y ++ [[]]) = l ++ [(y, [])].
Proof. unfold alternating. induction l as [|[a b] l IH]; cbn in *; auto. now rewrite IH. Qed.
Lemma present_alternating keep l y L : L = (match keep with KeepFalse => map fst l ++ [y] | _ => alternating l y end) ->
  match keep with
  | KeepFalse | Alternating => map Str L
  | _ => map (fun p => match keep with AsPairs => Two (fst p) (snd p) | _ => Str (fst p ++ snd p) end)
           (in_pairs (if Nat.odd (length L) then L ++ [[]] else L))
  end = present keep l y.
Proof.
  intros ->. destruct keep; auto; rewrite alternating_odd, in_pairs_alternating; cbn [present]; auto.
  rewrite !map_app. cbn. rewrite app_nil_r, map_map. reflexivity.
Qed.
Lemma limit_of_gen m : (match m with None => (-1)%Z | Some m => m end) <> 0%Z ->
  (if (match m with None => (-1)%Z | Some m => m end =? -1)%Z then None else Some (Z.to_nat match m with None => (-1)%Z | Some m => m end)) = limit_of m.
Proof. destruct m as [m|]; cbn; auto. Qed.
Definition re_keep_of (keep : keep_mode) : bool := match keep with KeepFalse => false | _ => true end.
Lemma gen_forward s seps keep m separate strip : nonempty seps -> strip <> Progressive -> exists l y,
  splits separate seps (limit_of m) s l y /\ multisplit_gen s seps keep m false separate strip (re_keep_of keep) = present keep l y.
Proof.
  intros NE NP. unfold multisplit_gen. destruct (Z.eqb_spec (match m with None => (-1)%Z | Some m => m end) 0) as [E|E].
  - exists [], s. destruct m as [m|]; [|discriminate]. subst m. split; [apply split_limit|]. destruct keep; reflexivity.
  - rewrite (limit_of_gen m E). pose proof (split_spec separate seps (limit_of m) s NE) as S.
    destruct (re_split _ _ s) as [l y]. cbn [fst snd] in S. exists l, y. split; auto.
    etransitivity; [|apply (present_alternating keep l y (match keep with KeepFalse => map fst l ++ [y] | _ => alternating l y end) eq_refl)].
    destruct strip; try congruence; destruct keep; reflexivity.
Qed.
Lemma gen_reverse s seps keep m separate strip : nonempty seps -> strip <> Progressive -> exists l y,
  rsplits separate seps (limit_of m) s l y /\ multisplit_gen s seps keep m true separate strip (re_keep_of keep) = present keep l y.
Proof.
  intros NE NP. unfold multisplit_gen. destruct (Z.eqb_spec (match m with None => (-1)%Z | Some m => m end) 0) as [E|E].
  - exists [], s. destruct m as [m|]; [|discriminate]. subst m. split; [apply rsplit_limit|]. destruct keep; reflexivity.
  - rewrite (limit_of_gen m E).
    pose proof (reverse_separators_same seps) as RS.
    rewrite (re_split_same separate (reverse_separators seps) (map (@rev chr) seps)); auto using nonempty_rev.
    2:{ eapply nonempty_same; [apply same_sym; exact RS|]. now apply nonempty_rev. }
    pose proof (split_spec separate (map (@rev chr) seps) (limit_of m) (rev s) (nonempty_rev _ NE)) as S.
    destruct (re_split _ _ (rev s)) as [l y]. cbn [fst snd] in S.
    apply splits_rev in S. rewrite rev_involutive in S. destruct S as (l' & x & S & Ea & Ef). exists l', x. split; auto.
    etransitivity; [|apply (present_alternating keep l' x (match keep with KeepFalse => map fst l' ++ [x] | _ => alternating l' x end) eq_refl)].
    rewrite Ea, Ef. destruct strip; try congruence; destruct keep; reflexivity.
Qed.
Definition split_from (reverse separate : bool) (seps : list str) (n : option nat) (s : str) (l : list (str * str)) (y : str) : Prop :=
  if reverse then rsplits separate seps n s l y else splits separate seps n s l y.
Lemma gen_spec s seps keep m reverse separate strip : nonempty seps -> strip <> Progressive -> exists l y,
  split_from reverse separate seps (limit_of m) s l y /\ multisplit_gen s seps keep m reverse separate strip (re_keep_of keep) = present keep l y.
Proof. destruct reverse; [apply gen_reverse|apply gen_forward]. Qed.
Lemma multisplit_spec s seps keep m reverse separate : seps <> [] -> nonempty seps -> exists l y,
  split_from reverse separate seps (limit_of m) s l y /\ multisplit s (Some seps) keep m reverse separate StripFalse = Ok (present keep l y).
Proof.
  intros H NE. unfold multisplit. destruct seps as [|w seps]; [congruence|]. cbn [is_nil].
  destruct (gen_spec s (w :: seps) keep m reverse separate StripFalse NE) as (l & y & S & E); [discriminate|].
  exists l, y. split; auto. f_equal. exact E.
Qed.

(** ---- consequences of the specification ---- *)
Lemma rsplits_concat separate seps n s l y : rsplits separate seps n s l y -> concat (alternating l y) = s.
Proof.
  unfold alternating. induction 1 as [s|n s F|n x w t y l Hn Lf O Sp IH]; cbn in *; rewrite ?app_nil_r; auto.
  rewrite flat_map_app, !concat_app in *. cbn in *. rewrite !app_nil_r in *. rewrite <- IH, <- !app_assoc. reflexivity.
Qed.
Lemma from_concat reverse separate seps n s l y : split_from reverse separate seps n s l y -> concat (alternating l y) = s.
Proof. destruct reverse; [apply rsplits_concat|apply splits_concat]. Qed.
Lemma present_concat keep l y : keep <> KeepFalse -> concat (strs (present keep l y)) = concat (alternating l y).
Proof.
  assert (S : forall L, strs (map Str L) = L) by (unfold strs; induction L; cbn; congruence).
  intros N. destruct keep; cbn [present]; try congruence; rewrite ?S; auto.
  - unfold alternating. induction l as [|[a b] l IH]; cbn in *; auto. now rewrite <- IH, <- app_assoc.
  - unfold strs, alternating. induction l as [|[a b] l IH]; cbn in *; auto. now rewrite IH.
Qed.
