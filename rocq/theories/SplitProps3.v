(** multisplit and the string methods of Python: the properties C97 and C98. *)
From Verif Require Import SplitModel SplitSpec SplitSpec2 SplitSpec3 SplitProof SplitProof2 SplitProof3 SplitProps SplitProps2 RegexProof PyBaseProof PyStrProof.

(** * C97: split at one separator *)
Lemma occurs_at sep s i : sep_at [sep] s i <-> occurs sep s i.
Proof. split; [intros (w & t & [<-|[]] & E); now exists t|intros (t & E); exists sep, t; split; cbn; auto]. Qed.
Lemma absent_free sep s : sep_free [sep] s <-> absent sep s.
Proof. split; intros H i O; apply (H i); now apply occurs_at. Qed.
Lemma longest_one sep w t : longest [sep] w t -> w = sep.
Proof. intros [[<-|[]] _]. reflexivity. Qed.
Lemma splits_one sep n s l y : splits true [sep] n s l y -> sep_split sep n s (map fst l ++ [y]).
Proof.
  induction 1; cbn [map fst app].
  - constructor.
  - apply ss_none. now apply absent_free.
  - cbn in H1. apply longest_one in H1. subst w. apply ss_cut; auto. intros i L O. apply (H0 i L). now apply occurs_at.
Qed.
Lemma occurs_ends sep s i : sep_ends [sep] s i <-> i + length sep <= length s /\ occurs sep s (length s - i - length sep).
Proof.
  split.
  - intros (w & t & [<-|[]] & E & L). assert (Len : length s - i = length t + length sep).
    { apply (f_equal (@length chr)) in E. rewrite firstn_length, app_length in E. lia. }
    split; [lia|]. exists (skipn (length s - i) s). rewrite <- (firstn_skipn (length s - i) s) at 2. rewrite E. rewrite <- app_assoc. replace (length s - i - length sep) with (length t) by lia.
    rewrite skipn_app, skipn_all, Nat.sub_diag. reflexivity.
  - intros (L & t & E). exists sep, (firstn (length s - i - length sep) s). split; [now left|]. split; [|lia].
    assert (Q : firstn (length s - i) s = firstn (length s - i - length sep) s ++ firstn (length sep) (skipn (length s - i - length sep) s)).
    { rewrite firstn_skipn_comm. replace (length s - i - length sep + length sep) with (length s - i) by lia.
      rewrite <- (firstn_skipn (length s - i - length sep) (firstn (length s - i) s)) at 1. f_equal. rewrite firstn_firstn. f_equal. lia. }
    rewrite Q, E. rewrite firstn_app, firstn_all, Nat.sub_diag. cbn. now rewrite app_nil_r.
Qed.
Lemma rsplits_one sep n s l y : sep <> [] -> rsplits true [sep] n s l y -> sep_rsplit sep n s (map fst l ++ [y]) .
Proof.
  intros NE. induction 1 as [s|n s F|n x w t y l N Rt O S IH].
  - constructor.
  - apply rs_none. now apply absent_free.
  - cbn in O. destruct O as [[<-|[]] _]. rewrite map_app. cbn [map fst]. apply rs_cut; auto.
    intros i L (r & E). assert (Le : length (t ++ sep ++ x) - i = length sep + length r) by (rewrite <- skipn_length, E, app_length; reflexivity). rewrite !app_length in Le.
    assert (Ps : 0 < length sep) by (destruct sep; [congruence|cbn; lia]). apply (Rt (length r)).
    + lia.
    + apply occurs_ends. rewrite !app_length. split; [lia|]. replace (length t + (length sep + length x) - length r - length sep) with i by lia. now exists r.
Qed.
(** multisplit(s, [sep], maxsplit=n, separate=True) is s.split(sep, n), and with reverse=True
    it is s.rsplit(sep, n). *)
Theorem C97_as_str_split : forall s sep maxsplit, sep <> [] -> maxsplit = None \/ (exists m, maxsplit = Some m /\ (-1 <= m)%Z) ->
  let n := match maxsplit with None | Some (-1)%Z => None | Some m => Some (Z.to_nat m) end in
  (exists l, multisplit s (Some [sep]) KeepFalse maxsplit false true StripFalse = Ok (map Str l) /\ sep_split sep n s l) /\
  (exists l, multisplit s (Some [sep]) KeepFalse maxsplit true true StripFalse = Ok (map Str l) /\ sep_rsplit sep n s l).
Proof.
  intros s sep m NE Hm n. assert (V : valid (Some [sep])) by (split; [discriminate|]; repeat constructor; auto).
  assert (L : limit_of m = n). { unfold n. destruct Hm as [->|(z & -> & G)]; [reflexivity|]. cbn. destruct z as [|p|p]; auto. destruct p; try lia. reflexivity. }
  split.
  - destruct (C32_multisplit_is_the_split s (Some [sep]) KeepFalse m false true V) as (l & y & S & E). rewrite L in S. eexists. split; [exact E|]. now apply splits_one.
  - destruct (C32_multisplit_is_the_split s (Some [sep]) KeepFalse m true true V) as (l & y & S & E). rewrite L in S. eexists. split; [exact E|]. apply rsplits_one; auto.
Qed.
Print Assumptions C97_as_str_split.
(** the relations leave no choice *)
Lemma first_cut_fun sep x t x' t' : sep <> [] -> first_cut sep x t -> first_cut sep x' t' -> x ++ sep ++ t = x' ++ sep ++ t' -> x = x' /\ t = t'.
Proof.
  intros NE A B E. assert (O : forall a b : str, occurs sep (a ++ sep ++ b) (length a)) by (intros a b; exists b; rewrite skipn_app, skipn_all, Nat.sub_diag; reflexivity).
  assert (L : length x = length x').
  { destruct (Nat.lt_trichotomy (length x) (length x')) as [L|[L|L]]; auto; exfalso.
    - apply (B _ L). rewrite <- E. apply O.
    - apply (A _ L). rewrite E. apply O. }
  destruct (app_len_inj _ _ _ _ L E) as [-> E2]. split; auto. now apply app_inv_head in E2.
Qed.
Lemma last_cut_fun sep x t x' t' : sep <> [] -> last_cut sep x t -> last_cut sep x' t' -> x ++ sep ++ t = x' ++ sep ++ t' -> x = x' /\ t = t'.
Proof.
  intros NE A B E. assert (O : forall a b : str, occurs sep (a ++ sep ++ b) (length a)) by (intros a b; exists b; rewrite skipn_app, skipn_all, Nat.sub_diag; reflexivity).
  assert (L : length x = length x').
  { destruct (Nat.lt_trichotomy (length x) (length x')) as [L|[L|L]]; auto; exfalso.
    - apply (A _ L). rewrite E. apply O.
    - apply (B _ L). rewrite <- E. apply O. }
  destruct (app_len_inj _ _ _ _ L E) as [-> E2]. split; auto. now apply app_inv_head in E2.
Qed.
Lemma occurs_there (sep a b : str) : occurs sep (a ++ sep ++ b) (length a).
Proof. exists b. rewrite skipn_app, skipn_all, Nat.sub_diag. reflexivity. Qed.
Theorem C97_split_is_unique : forall sep n s l l', sep <> [] ->
  (sep_split sep n s l -> sep_split sep n s l' -> l = l') /\ (sep_rsplit sep n s l -> sep_rsplit sep n s l' -> l = l').
Proof.
  intros sep n s l l' NE. split; intros A; revert l'.
  - induction A as [s|n s F|n x t l N C A IH]; intros l' B; inversion B; subst; auto; try congruence.
    + destruct (F _ (occurs_there sep x t)).
    + destruct (H _ (occurs_there sep x t)).
    + destruct (first_cut_fun _ _ _ _ _ NE C H1 (eq_sym H)) as [<- <-]. f_equal. auto.
  - induction A as [s|n s F|n x t l N C A IH]; intros l' B; inversion B; subst; auto; try congruence.
    + destruct (F _ (occurs_there sep x t)).
    + destruct (H _ (occurs_there sep x t)).
    + destruct (last_cut_fun _ _ _ _ _ NE C H1 (eq_sym H)) as [<- <-]. f_equal. auto.
Qed.
Print Assumptions C97_split_is_unique.
(** A maxsplit below -1 means no limit to str.split; multisplit then does not split at all. *)
Theorem C97_below_minus_one : forall s sep m keep (reverse separate : bool), sep <> [] -> (m < -1)%Z -> multisplit s (Some [sep]) keep (Some m) reverse separate StripFalse =
  Ok match keep with AsPairs => [Two s []] | _ => [Str s] end.
Proof.
  intros s sep m keep reverse separate NE L. assert (V : valid (Some [sep])) by (split; [discriminate|]; repeat constructor; auto).
  destruct (C32_multisplit_is_the_split s (Some [sep]) keep (Some m) reverse separate V) as (l & y & S & E).
  assert (Q : limit_of (Some m) = Some 0) by (destruct m as [|p|[p|p|]]; cbn; auto; lia). rewrite Q in S.
  assert (l = [] /\ y = s) as [-> ->]. { destruct reverse; inversion S; subst; auto; congruence. }
  rewrite E. destruct keep; reflexivity.
Qed.
Print Assumptions C97_below_minus_one.
Theorem C97_below_minus_one_refuted : multisplit (u "a,b") (Some [u ","]) KeepFalse (Some (-2)%Z) false true StripFalse = Ok [Str (u "a,b")] /\ sep_split (u ",") None (u "a,b") [u "a"; u "b"].
Proof.
  split; [apply C97_below_minus_one; [discriminate|lia]|]. destruct (C97_as_str_split (u "a,b") (u ",") None) as [(l & E & S) _]; [discriminate|auto|].
  vm_compute in E. injection E as E. destruct l as [|a [|b [|? ?]]]; try discriminate. injection E as <- <-. exact S.
Qed.
Print Assumptions C97_below_minus_one_refuted.
Example C97_witness : multisplit (u "aXXbXXXc") (Some [u "XX"]) KeepFalse (Some (-1)%Z) false true StripFalse = Ok (map Str [u "a"; u "b"; u "Xc"]) /\
  multisplit (u "aXXbXXXc") (Some [u "XX"]) KeepFalse (Some 1%Z) true true StripFalse = Ok (map Str [u "aXXbX"; u "c"]).
Proof. split; vm_compute; reflexivity. Qed.

(** * C98: partition *)
(** multipartition(s, [sep]) is s.partition(sep), multirpartition(s, [sep]) is s.rpartition(sep) *)
Theorem C98_as_str_partition : forall s sep, sep <> [] ->
  (exists r, multipartition s (Some [sep]) 1 false true = Ok r /\ partitioned sep s r) /\
  (exists r, multirpartition s (Some [sep]) 1 false true = Ok r /\ rpartitioned sep s r).
Proof.
  intros s sep NE. assert (V : valid (Some [sep])) by (split; [discriminate|]; repeat constructor; auto). rewrite C37_multirpartition. cbn [negb]. split.
  - destruct (C37_multipartition s (Some [sep]) 1 false true V) as (l & y & pad & S & E & L & _ & _); [lia|]. change (Z.to_nat 1) with 1 in *. rewrite E. eexists. split; [reflexivity|].
    inversion S; subst.
    + left. split; [now apply absent_free|]. cbn [length] in L. replace pad with 2 by lia. reflexivity.
    + right. cbn in H1. apply longest_one in H1. subst w. cbn in H2. inversion H2; subst; try congruence; cbn [length] in L.
      * exists x, y. split; auto. split; [intros i Q O; apply (H0 i Q); now apply occurs_at|]. replace pad with 0 by lia. reflexivity.
      * exists x, y. split; auto. split; [intros i Q O; apply (H0 i Q); now apply occurs_at|]. replace pad with 0 by lia. reflexivity.
  - destruct (C37_multipartition s (Some [sep]) 1 true true V) as (l & y & pad & S & E & L & _ & _); [lia|]. change (Z.to_nat 1) with 1 in *. rewrite E. eexists. split; [reflexivity|].
    assert (Q : sep_rsplit sep (Some 1) s (map fst l ++ [y])) by (now apply rsplits_one).
    inversion S; subst.
    + left. split; [now apply absent_free|]. cbn [length] in L. replace pad with 2 by lia. reflexivity.
    + right. cbn in H1. destruct H1 as [[<-|[]] _]. cbn in H2. assert (l0 = [] /\ y0 = t) as [-> ->] by (inversion H2; subst; auto; congruence). cbn [app] in *.
      exists t, y. split; auto. split; [|cbn [length] in L; replace pad with 0 by lia; reflexivity].
      inversion Q; subst.
      cbn [option_map pred] in H7. assert (l = [x]) as -> by (inversion H7; subst; auto; congruence). injection H3 as -> ->. exact H6.
Qed.
Print Assumptions C98_as_str_partition.
Example C98_witness : multipartition (u "aXXXb") (Some [u "XX"]) 1 false true = Ok [u "a"; u "XX"; u "Xb"] /\ multirpartition (u "aXXXb") (Some [u "XX"]) 1 false true = Ok [u "aX"; u "XX"; u "b"] /\
  multipartition (u "ab") (Some [u "XX"]) 1 false true = Ok [u "ab"; []; []] /\ multirpartition (u "ab") (Some [u "XX"]) 1 false true = Ok [[]; []; u "ab"].
Proof. repeat split; vm_compute; reflexivity. Qed.
