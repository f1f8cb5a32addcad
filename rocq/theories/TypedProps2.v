(** C104: the empty string among the separators of multisplit.  It is not rejected (unless strip is true), and the text falls apart into its characters. *)
From Verif Require Import TypedSpec2 TypedProof TypedProps SplitSpec SplitProof SplitProof2 SplitProof3 RegexProof PyBaseProof PyStrProof.

Lemma accepted k c v l seps keep maxsplit reverse separate : strings k l seps -> In [] seps ->
  multisplit_py k c v (OSeq l) keep maxsplit reverse separate StripFalse =
  Ok (yields k c v keep maxsplit (gen_over (split_any (separators_re (if reverse then reverse_separators seps else seps) separate)) v keep maxsplit reverse StripFalse
       (match keep with KeepFalse => false | _ => true end))).
Proof.
  intros F I. unfold multisplit_py. unfold split_separators. assert (Nl : l <> []) by (intros ->; inversion F; subst; destruct I). cbn [truth iterate].
  replace (is_nil l) with false by (destruct l; [congruence|reflexivity]). cbn [negb rbind]. rewrite (proj2 (check_types_ok k l seps) F). cbn [rmap rbind].
  unfold gen. destruct seps as [|w seps]; [destruct I|]. replace (existsb is_nil (w :: seps)) with true by (symmetry; now apply is_nil_in). reflexivity.
Qed.
Lemma flat_fst l : map fst (flat_map shred l) = flat_map fall_apart (map fst l).
Proof. induction l as [|[x w] l IH]; auto. cbn [flat_map map]. rewrite map_app, IH, shred_fst. reflexivity. Qed.
Lemma apart_app a b : flat_map fall_apart (a ++ b) = flat_map fall_apart a ++ flat_map fall_apart b.
Proof. apply flat_map_app. Qed.
Lemma without_shreds l y : without_seps (flat_map shred l ++ shred (y, []), []) = flat_map fall_apart (map fst l ++ [y]) ++ [[]].
Proof.
  unfold without_seps. cbn [fst snd]. rewrite map_app, flat_fst, shred_fst, apart_app. cbn [flat_map]. now rewrite app_nil_r.
Qed.
Lemma apart_rev z : rev (map (@rev chr) (fall_apart z)) = map (fun c => [c]) (rev z) ++ [[]].
Proof. unfold fall_apart. cbn [map rev]. f_equal. rewrite map_map, map_rev. reflexivity. Qed.
Lemma aparts_rev zs : rev (map (@rev chr) (flat_map fall_apart zs ++ [[]])) = flat_map fall_apart (rev (map (@rev chr) zs)) ++ [[]].
Proof.
  induction zs as [|z zs IH]; auto. cbn [flat_map map rev]. rewrite apart_app, <- !app_assoc, map_app, rev_app_distr, apart_rev.
  transitivity ((flat_map fall_apart (rev (map (@rev chr) zs)) ++ [[]]) ++ map (fun c => [c]) (rev z) ++ [[]]); [f_equal; exact IH|]. cbn [flat_map]. unfold fall_apart at 3. rewrite app_nil_r, <- !app_assoc. reflexivity.
Qed.
Lemma ne_reverse seps others : others_of seps others -> others <> [] -> same_seps (ne (reverse_separators seps)) (reverse_separators others).
Proof.
  intros O _ w. rewrite (reverse_separators_same others w). unfold ne. rewrite filter_In, (reverse_separators_same seps w), !in_map_iff. split.
  - intros ((x & <- & I) & N). exists x. split; auto. apply O. split; auto. intros ->. discriminate.
  - intros (x & <- & I). apply O in I as (I & N). split; [eauto|]. destruct (rev x) eqn:E; auto. apply (f_equal (@rev chr)) in E. rewrite rev_involutive in E. now subst.
Qed.
Lemma ne_same seps others : others_of seps others -> same_seps (ne seps) others.
Proof. intros O w. unfold ne. rewrite filter_In, (O w). destruct w; cbn; intuition congruence. Qed.
Lemma others_nonempty seps others : others_of seps others -> nonempty others.
Proof. intros O. unfold nonempty. rewrite Forall_forall. intros w I. now apply O in I. Qed.
Lemma no_others seps : others_of seps [] -> ne seps = [].
Proof. intros O. destruct (ne seps) as [|w l] eqn:E; auto. exfalso. apply (O w). assert (In w (ne seps)) as I by (rewrite E; now left). apply filter_In in I as (I & N). split; auto. now destruct w. Qed.
Lemma no_others_reverse seps : others_of seps [] -> ne (reverse_separators seps) = [].
Proof.
  intros O. destruct (ne (reverse_separators seps)) as [|w l] eqn:E; auto. exfalso. assert (In w (ne (reverse_separators seps))) as I by (rewrite E; now left).
  apply filter_In in I as (I & N). apply reverse_separators_same in I. apply in_map_iff in I as (x & <- & I). apply (O x). split; auto. intros ->. discriminate.
Qed.
Lemma split_nothing separate s : re_split (separators_re [] separate) None s = ([], s).
Proof.
  pose proof (split_spec separate [] None s ltac:(constructor)) as H. assert (G : splits separate [] None s [] s) by (constructor; intros i (w & t & [] & _)).
  destruct (splits_fun _ _ _ _ _ _ H _ _ _ eq_refl G) as [E1 E2]. rewrite (surjective_pairing (re_split _ None s)), E1, E2. reflexivity.
Qed.
Definition unlimited (maxsplit : option Z) : Prop := maxsplit = None \/ maxsplit = Some (-1)%Z.
(** [xs]: what the other separators make of the text (the whole text, if there are none); each piece falls apart.  In both directions. *)
Theorem C104_empty_separator k c v l seps others xs maxsplit reverse separate : strings k l seps -> In [] seps -> others_of seps others -> unlimited maxsplit ->
  (others = [] /\ xs = [v] \/ multisplit v (Some others) KeepFalse (Some (-1)%Z) reverse separate StripFalse = Ok (map Str xs)) ->
  multisplit_py k c v (OSeq l) KeepFalse maxsplit reverse separate StripFalse = Ok (map (plain_text k) (flat_map fall_apart xs ++ [[]])).
Proof.
  intros F I O U X. rewrite (accepted k c v l seps) by auto. f_equal.
  set (rs := if reverse then reverse_separators seps else seps). set (v' := if reverse then rev v else v).
  assert (In [] rs) as Ir.
  { unfold rs. destruct reverse; auto. apply reverse_separators_same. apply in_map_iff. exists []. auto. }
  assert (E : exists ys, without_seps (split_any (separators_re rs separate) None v') = flat_map fall_apart ys ++ [[]] /\ xs = if reverse then rev (map (@rev chr) ys) else ys).
  { rewrite split_any_shreds by auto. rewrite without_shreds. eexists. split; [reflexivity|]. destruct X as [(-> & ->)|X].
    - replace (ne rs) with (@nil str) by (unfold rs; destruct reverse; [now rewrite no_others_reverse|now rewrite no_others]).
      rewrite split_nothing. cbn [fst snd map app]. unfold v'. destruct reverse; auto. cbn. now rewrite rev_involutive.
    - assert (No : others <> []) by (intros ->; discriminate X).
      assert (Es : re_split (separators_re (ne rs) separate) None v' = re_split (separators_re (if reverse then reverse_separators others else others) separate) None v').
      { apply re_split_same; [apply ne_nonempty| |].
        - pose proof (others_nonempty _ _ O). destruct reverse; auto. apply (nonempty_same (map (@rev chr) others)); [apply same_sym, reverse_separators_same|now apply nonempty_rev].
        - unfold rs. destruct reverse; [now apply ne_reverse|now apply ne_same]. }
      rewrite Es. unfold multisplit in X. replace (is_nil others) with false in X by (destruct others; [congruence|reflexivity]). unfold multisplit_gen in X. cbn [Z.eqb Pos.eqb] in X. fold v' in X.
      unfold without_seps in X. destruct (re_split _ None v') as [p y]. cbn [fst snd] in *.
      injection X as X. assert (SI : forall a b, map Str a = map Str b -> a = b) by (clear; induction a as [|x a IH]; intros [|z b]; cbn; try discriminate; auto; intros [= -> E]; f_equal; auto).
      apply SI in X. now rewrite <- X. }
  destruct E as (ys & E & ->).
  assert (Y : gen_over (split_any (separators_re rs separate)) v KeepFalse maxsplit reverse StripFalse false = map Str (flat_map fall_apart (if reverse then rev (map (@rev chr) ys) else ys) ++ [[]])).
  { unfold gen_over. destruct U as [-> | ->]; cbn [Z.eqb Pos.eqb]; fold v'; rewrite E; (destruct reverse; [now rewrite aparts_rev|reflexivity]). }
  rewrite Y. unfold yields. destruct U as [-> | ->]; now rewrite map_map.
Qed.
(** With the separators: the empty string before every character, and the separator that ends the piece. *)
Lemma shred_with x w : flat_map (fun q => [fst q; snd q]) (shred (x, w)) = fall_apart_with (x, w).
Proof.
  unfold shred, fall_apart_with. cbn [fst snd]. assert (G : forall x y, flat_map (fun q : str * str => [fst q; snd q]) (combine (y :: map (fun c => [c]) x) (map (fun _ => []) x ++ [w])) = [y] ++ flat_map (fun c => [[]; [c]]) x ++ [w]).
  { clear. induction x as [|c x IH]; intros y; auto. cbn [map app combine flat_map fst snd] in *. f_equal. f_equal. exact (IH [c]). }
  apply G.
Qed.
Lemma with_shreds l : flat_map (fun q => [fst q; snd q]) (flat_map shred l) = flat_map fall_apart_with l.
Proof. induction l as [|[x w] l IH]; auto. cbn [flat_map]. rewrite flat_map_app, IH, shred_with. reflexivity. Qed.
Lemma pairs_of (l : list (str * str)) y : in_pairs (if Nat.odd (length (flat_map (fun q => [fst q; snd q]) l ++ [y])) then (flat_map (fun q => [fst q; snd q]) l ++ [y]) ++ [[]] else flat_map (fun q => [fst q; snd q]) l ++ [y]) = l ++ [(y, [])].
Proof.
  replace (Nat.odd _) with true.
  - rewrite <- app_assoc. cbn [app]. induction l as [|[a b] l IH]; auto. cbn [flat_map fst snd app in_pairs]. now rewrite IH.
  - symmetry. rewrite app_length. cbn [length]. replace (length (flat_map _ l)) with (2 * length l) by (clear; induction l; cbn in *; lia). rewrite Nat.add_1_r, Nat.odd_succ. apply Nat.even_spec. now exists (length l).
Qed.
Theorem C104_empty_separator_alternating k c v l seps others pairs maxsplit separate : strings k l seps -> In [] seps -> others_of seps others -> unlimited maxsplit ->
  (others = [] /\ pairs = [(v, [])] \/ multisplit v (Some others) AsPairs (Some (-1)%Z) false separate StripFalse = Ok (map (fun p => Two (fst p) (snd p)) pairs)) ->
  multisplit_py k c v (OSeq l) Alternating maxsplit false separate StripFalse = Ok (map (plain_text k) (flat_map fall_apart_with pairs ++ [[]])).
Proof.
  intros F I O U X. rewrite (accepted k c v l seps) by auto. f_equal.
  assert (E : with_seps (split_any (separators_re seps separate) None v) = flat_map fall_apart_with pairs ++ [[]]).
  { rewrite split_any_shreds by auto. unfold with_seps. cbn [fst snd]. rewrite flat_map_app, with_shreds, shred_with. f_equal. destruct X as [(-> & ->)|X].
    - rewrite (no_others seps) by auto. rewrite split_nothing. cbn [fst snd flat_map app]. now rewrite app_nil_r.
    - assert (No : others <> []) by (intros ->; discriminate X).
      assert (Es : re_split (separators_re (ne seps) separate) None v = re_split (separators_re others separate) None v) by (apply re_split_same; [apply ne_nonempty|now apply (others_nonempty seps)|now apply ne_same]).
      rewrite Es. unfold multisplit in X. replace (is_nil others) with false in X by (destruct others; [congruence|reflexivity]). unfold multisplit_gen in X. cbn [Z.eqb Pos.eqb] in X.
      unfold with_seps in X. destruct (re_split _ None v) as [p y]. cbn [fst snd] in *. rewrite pairs_of in X. injection X as X.
      assert (TI : forall a b : list (str * str), map (fun p => Two (fst p) (snd p)) a = map (fun p => Two (fst p) (snd p)) b -> a = b).
      { clear. induction a as [|[x w] a IH]; intros [|[z u] b]; cbn; try discriminate; auto. intros [= -> -> E]. f_equal; auto. }
      apply TI in X. rewrite <- X, flat_map_app. cbn [flat_map]. now rewrite app_nil_r. }
  assert (Y : gen_over (split_any (separators_re seps separate)) v Alternating maxsplit false StripFalse true = map Str (flat_map fall_apart_with pairs ++ [[]])).
  { unfold gen_over. destruct U as [-> | ->]; cbn [Z.eqb Pos.eqb]; now rewrite E. }
  rewrite Y. unfold yields. destruct U as [-> | ->]; now rewrite map_map.
Qed.
(** Nothing of the text is lost, whatever the limit and the direction; and a limit gives at most that many cuts. *)
Lemma cut_at (s p t : str) : s = p ++ t -> s = [] ++ firstn (length s - length t) s ++ t.
Proof. intros ->. cbn [app]. rewrite app_length, Nat.add_sub, firstn_app, Nat.sub_diag, firstn_all, app_nil_r. reflexivity. Qed.
Lemma search_from_concat again r s b m a : search_from again r s = Some (b, m, a) -> s = b ++ m ++ a.
Proof.
  revert again b m a. induction s as [|c s IH]; intros again b m a; cbn [search_from]; destruct (match_from again r _) as [t|] eqn:M.
  1,3: intros [= <- <- <-]; unfold match_from in M; apply rmatch_sound in M as (s' & g' & R & Q); destruct (again && _); [discriminate|]; injection Q as ->;
    apply rel_suffix in R as (p & E); first [exact (cut_at _ p _ E)|symmetry in E; apply app_eq_nil in E as (_ & ->); reflexivity].
  - discriminate.
  - destruct (search_from false r s) as [[[b' m'] a']|] eqn:E; [|discriminate]. intros [= <- <- <-]. now rewrite (IH _ _ _ _ E).
Qed.
Lemma split_any_concat r : forall f n again s, concat (with_seps (split_any_fuel f r n again s)) = s.
Proof.
  induction f as [|f IH]; intros n again s; cbn [split_any_fuel]; [unfold with_seps; cbn; apply app_nil_r|].
  assert (G : concat (with_seps (match search_from again r s with None => ([], s) | Some (b, m, a) => let '(l, y) := split_any_fuel f r (option_map pred n) (is_nil m) a in ((b, m) :: l, y) end)) = s).
  { destruct (search_from again r s) as [[[b m] a]|] eqn:E; [|unfold with_seps; cbn; apply app_nil_r]. apply search_from_concat in E. specialize (IH (option_map pred n) (is_nil m) a).
    destruct (split_any_fuel f r _ _ a) as [l y]. unfold with_seps in *. cbn [fst snd flat_map app concat] in *. now rewrite IH, <- E. }
  destruct n as [[|n]|]; auto. unfold with_seps. cbn. apply app_nil_r.
Qed.
Lemma split_any_limit r : forall f n again s, length (fst (split_any_fuel f r (Some n) again s)) <= n.
Proof.
  induction f as [|f IH]; intros n again s; cbn [split_any_fuel]; [destruct n; cbn; lia|]. destruct n as [|n]; [cbn; lia|].
  destruct (search_from again r s) as [[[b m] a]|]; [|cbn; lia]. cbn [option_map Init.Nat.pred]. specialize (IH n (is_nil m) a). destruct (split_any_fuel f r _ _ a) as [l y]. cbn in *. lia.
Qed.
Lemma concat_mirror (l : list str) : concat (rev (map (@rev chr) l)) = rev (concat l).
Proof. induction l as [|x l IH]; auto. cbn [map rev concat]. rewrite concat_app, rev_app_distr. cbn [concat]. rewrite app_nil_r. f_equal. exact IH. Qed.
Lemma with_seps_length p : length (with_seps p) = 2 * length (fst p) + 1.
Proof.
  unfold with_seps. rewrite app_length. cbn [length]. f_equal. induction (fst p) as [|q l IH]; auto. cbn [flat_map app length]. lia.
Qed.
Theorem C104_empty_separator_text k c v l seps maxsplit reverse separate : strings k l seps -> In [] seps ->
  exists texts, multisplit_py k c v (OSeq l) Alternating maxsplit reverse separate StripFalse = Ok (map OOne texts) /\ concat (map value texts) = v /\
    (forall n, maxsplit = Some (Z.of_nat n) -> length texts <= 2 * n + 1).
Proof.
  intros F I. rewrite (accepted k c v l seps) by auto. unfold yields.
  assert (G : maxsplit <> Some 0%Z -> exists texts, map (typed k) (gen_over (split_any (separators_re (if reverse then reverse_separators seps else seps) separate)) v Alternating maxsplit reverse StripFalse true) = map OOne texts
     /\ concat (map value texts) = v /\ (forall n, maxsplit = Some (Z.of_nat n) -> length texts <= 2 * n + 1)).
  { intros N0. unfold gen_over. set (m := match maxsplit with None => (-1)%Z | Some m => m end).
    replace (m =? 0)%Z with false by (symmetry; apply Z.eqb_neq; unfold m; destruct maxsplit; congruence).
    set (limit := if (m =? -1)%Z then None else Some (Z.to_nat m)). set (v' := if reverse then rev v else v). set (r := separators_re _ separate).
    set (L := with_seps (split_any r limit v')). pose proof (split_any_concat r (2 * length v' + 1) limit false v') as C. fold (split_any r limit v') in C. fold L in C.
    exists (map (OText k None) (if reverse then rev (map (@rev chr) L) else L)). split; [now rewrite !map_map|]. split.
    - rewrite map_map, map_id. unfold v' in C. destruct reverse; auto. rewrite concat_mirror, C. apply rev_involutive.
    - intros n En. rewrite map_length. assert (EL : length (if reverse then rev (map (@rev chr) L) else L) = length L) by (destruct reverse; auto; now rewrite rev_length, map_length).
      etransitivity; [exact (Nat.eq_le_incl _ _ EL)|]. clear EL.
      pose proof (split_any_limit r (2 * length v' + 1) n false v') as B. fold (split_any r (Some n) v') in B.
      assert (El : limit = Some n) by (unfold limit, m; rewrite En; replace (Z.of_nat n =? -1)%Z with false by (symmetry; apply Z.eqb_neq; lia); now rewrite Nat2Z.id).
      rewrite <- El in B. pose proof (with_seps_length (split_any r limit v')) as W. fold L in W. etransitivity; [exact (Nat.eq_le_incl _ _ W)|]. apply Nat.add_le_mono_r, Nat.mul_le_mono_l. exact B. }
  destruct maxsplit as [[|p|p]|]; try (destruct G as (t & -> & G); [discriminate|]; exists t; auto).
  exists [OText k c v]. split; [reflexivity|]. split; [cbn; apply app_nil_r|]. cbn. lia.
Qed.
(** The model is the general re.split for every list of separators (TypedModel.v uses simpler functions where they are the same). *)
Theorem C104_one_pattern v seps keep maxsplit (reverse separate : bool) strip re_keep :
  gen v seps keep maxsplit reverse separate strip re_keep =
  gen_over (split_any (match seps with [] => Eps | _ => separators_re (if reverse then reverse_separators seps else seps) separate end)) v keep maxsplit reverse strip re_keep.
Proof.
  unfold gen. destruct seps as [|w seps].
  - unfold gen_over. now rewrite split_any_nothing.
  - destruct (existsb is_nil (w :: seps)) eqn:X; auto. symmetry. apply gen_over_is. intros limit s. apply split_any_agrees. intros s0 s' g R.
    eapply separators_shorter in R; auto.
    assert (N : nonempty (w :: seps)). { unfold nonempty. rewrite Forall_forall. intros x Ix ->. assert (existsb is_nil (w :: seps) = true) by (now apply is_nil_in). congruence. }
    destruct reverse; auto. apply (nonempty_same (map (@rev chr) (w :: seps))); [apply same_sym, reverse_separators_same|now apply nonempty_rev].
Qed.
Example C104_empty_separator_witness : strings KStr [OText KStr None []; OText KStr (Some 1) (u "b")] [[]; u "b"] /\ others_of [[]; u "b"] [u "b"] /\
  multisplit (u "abc") (Some [u "b"]) KeepFalse (Some (-1)%Z) false true StripFalse = Ok (map Str [u "a"; u "c"]) /\
  multisplit_py KStr None (u "abc") (OSeq [OText KStr None []; OText KStr (Some 1) (u "b")]) KeepFalse (Some (-1)%Z) false true StripFalse
    = Ok (map (plain_text KStr) [[]; u "a"; []; u "c"; []]) /\
  multisplit_py KStr None (u "abc") (OSeq [OText KStr None []; OText KStr (Some 1) (u "b")]) Alternating (Some (-1)%Z) false true StripFalse
    = Ok (map (plain_text KStr) [[]; []; u "a"; u "b"; []; []; u "c"; []; []]) /\
  multisplit_py KStr None (u "abc") (OSeq [OText KStr None []; OText KStr (Some 1) (u "b")]) Alternating (Some 2%Z) true true StripFalse
    = Ok (map (plain_text KStr) [u "a"; u "b"; u "c"; []; []]).
Proof.
  split; [repeat (constructor; [eexists; reflexivity|]); constructor|]. split; [|repeat split; vm_compute; reflexivity].
  intros w. cbn. split; [intros [<-|[]]; split; auto; discriminate|]. intros ([<-|[<-|[]]] & N); auto; congruence.
Qed.
Print Assumptions C104_empty_separator.
Print Assumptions C104_empty_separator_alternating.
Print Assumptions C104_empty_separator_text.
Print Assumptions C104_one_pattern.
