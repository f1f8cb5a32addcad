(** multisplit, multistrip, multipartition, normalize_whitespace: the properties C31-C38. *)
From Verif Require Import SplitModel SplitSpec SplitProof SplitProof2 SplitProof3 RegexProof PyBaseProof PyStrProof.

(** separators argument: None means str whitespace; otherwise at least one, none empty *)
Definition seps_of (o : option (list str)) : list str := match o with None => str_whitespace | Some l => l end.
Definition valid (o : option (list str)) : Prop := seps_of o <> [] /\ Forall (fun w : str => w <> []) (seps_of o).
Lemma strs_Str (L : list str) : strs (map Str L) = L.
Proof. unfold strs. induction L; cbn; congruence. Qed.
Lemma valid_none : valid None.
Proof. split; [discriminate|]. repeat constructor; discriminate. Qed.
Lemma multisplit_seps_of s o keep m (reverse separate : bool) strip :
  multisplit s o keep m reverse separate strip = multisplit s (Some (seps_of o)) keep m reverse separate strip.
Proof. destruct o; reflexivity. Qed.

(** C32 (and the basis of the others): what multisplit yields is the split of s at its
    separators: from the left (or right, with reverse), at each place the longest
    separator - or, with separate=False, the maximal run of such -, at most maxsplit
    times, presented as [keep] asks. *)
Theorem C32_multisplit_is_the_split : forall s o keep maxsplit (reverse separate : bool), valid o ->
  exists l y, (if reverse then rsplits separate (seps_of o) (limit_of maxsplit) s l y
               else splits separate (seps_of o) (limit_of maxsplit) s l y) /\
  multisplit s o keep maxsplit reverse separate StripFalse = Ok
    match keep return list item with
    | KeepFalse => map Str (map fst l ++ [y])
    | KeepTrue => map Str (map (fun p : str * str => fst p ++ snd p) l ++ [y])
    | Alternating => map Str (flat_map (fun p : str * str => [fst p; snd p]) l ++ [y])
    | AsPairs => map (fun p : str * str => Two (fst p) (snd p)) l ++ [Two y []]
    end.
Proof.
  intros s o keep m reverse separate [V1 V2]. rewrite multisplit_seps_of.
  destruct (multisplit_spec s (seps_of o) keep m reverse separate V1 V2) as (l & y & S & E).
  exists l, y. split; [exact S|]. rewrite E. destruct keep; cbn [present]; auto. now rewrite map_app.
Qed.
Print Assumptions C32_multisplit_is_the_split.
(** the specification leaves no choice *)
Theorem C32_split_is_unique : forall separate seps n s l y l' y', Forall (fun w : str => w <> []) seps ->
  (splits separate seps n s l y -> splits separate seps n s l' y' -> l = l' /\ y = y') /\
  (rsplits separate seps n s l y -> rsplits separate seps n s l' y' -> l = l' /\ y = y').
Proof. intros. split; intros; [eapply splits_fun; eauto|eapply rsplits_fun; eauto]. Qed.
Print Assumptions C32_split_is_unique.
Lemma from_fun (reverse separate : bool) seps n s l y l' y' : Forall (fun w : str => w <> []) seps ->
  split_from reverse separate seps n s l y -> split_from reverse separate seps n s l' y' -> l = l' /\ y = y'.
Proof. intros NE. destruct reverse; cbn; intros; [eapply rsplits_fun; eauto|eapply splits_fun; eauto]. Qed.
(** all keep modes show the same split *)
Lemma multisplit_all s o m (reverse separate : bool) : valid o -> exists l y, split_from reverse separate (seps_of o) (limit_of m) s l y /\
  forall keep, multisplit s o keep m reverse separate StripFalse = Ok (present keep l y).
Proof.
  intros [V1 V2]. destruct (multisplit_spec s (seps_of o) KeepFalse m reverse separate V1 V2) as (l & y & S & _). exists l, y. split; auto.
  intros keep. rewrite multisplit_seps_of. destruct (multisplit_spec s (seps_of o) keep m reverse separate V1 V2) as (l' & y' & S' & E).
  destruct (from_fun _ _ _ _ _ _ _ _ _ V2 S S') as [<- <-]. exact E.
Qed.
(** with maxsplit=-1 the yielded strings contain no separator, and the kept ones are
    separators (or, with separate=False, one or more of them) *)
Theorem C32_no_separator_left : forall s o (reverse separate : bool), valid o ->
  exists l y,
    multisplit s o Alternating (Some (-1)%Z) reverse separate StripFalse = Ok (map Str (flat_map (fun p : str * str => [fst p; snd p]) l ++ [y])) /\
    multisplit s o KeepFalse (Some (-1)%Z) reverse separate StripFalse = Ok (map Str (map fst l ++ [y])) /\
    Forall (sep_free (seps_of o)) (map fst l ++ [y]) /\
    Forall (fun w : str => w <> [] /\ if separate then In w (seps_of o) else of_seps (seps_of o) w) (map snd l).
Proof.
  intros s o reverse separate V. destruct (multisplit_all s o (Some (-1)%Z) reverse separate V) as (l & y & S & E).
  exists l, y. rewrite !E. split; [reflexivity|]. split; [reflexivity|]. destruct V as [_ V].
  rewrite Forall_app, !Forall_map. destruct reverse; cbn in S.
  - destruct (rsplits_clean _ _ _ _ _ V _ S) as (A & B & C); [discriminate|]. split; [|exact B]. split; auto.
  - destruct (splits_clean _ _ _ _ _ V _ S) as (A & B). split; [split; auto|]; (eapply Forall_impl; [|exact A]); intros p Hp; apply Hp.
Qed.
Print Assumptions C32_no_separator_left.
Example C32_witness : valid (Some [u "a"; u "abc"; u "x"]) /\
  multisplit (u "wxabcyzxxa") (Some [u "a"; u "abc"; u "x"]) Alternating (Some (-1)%Z) false true StripFalse
    = Ok (map Str [u "w"; u "x"; u ""; u "abc"; u "yz"; u "x"; u ""; u "x"; u ""; u "a"; u ""]) /\
  multisplit (u "wxabcyzxxa") (Some [u "a"; u "abc"; u "x"]) KeepFalse None true false StripFalse = Ok (map Str [u "w"; u "yz"; u ""]).
Proof. split; [split; [discriminate|repeat constructor; discriminate]|]. split; vm_compute; reflexivity. Qed.

(** C31: with keep (any kind) and no strip, the yielded text, in order, is s. *)
Theorem C31_text_preserved : forall s o keep maxsplit (reverse separate : bool), valid o -> keep <> KeepFalse ->
  exists l, multisplit s o keep maxsplit reverse separate StripFalse = Ok l /\
    concat (flat_map (fun i => match i with Str a => [a] | Two a b => [a; b] end) l) = s.
Proof.
  intros s o keep m reverse separate V K. destruct (multisplit_all s o m reverse separate V) as (l & y & S & E).
  rewrite E. eexists. split; [reflexivity|]. change (concat (strs (present keep l y)) = s). rewrite present_concat by exact K. eapply from_concat; eauto.
Qed.
Print Assumptions C31_text_preserved.
Example C31_witness : multisplit (u " a  b ") None AsPairs (Some 2%Z) true false StripFalse = Ok [Two (u " a") (u "  "); Two (u "b") (u " "); Two [] []].
Proof. vm_compute. reflexivity. Qed.

Lemma cut_here (A : Type) (X Y : list A) m : length X = m -> firstn m (X ++ Y) = X /\ skipn m (X ++ Y) = Y.
Proof. intros <-. rewrite firstn_app, skipn_app, Nat.sub_diag, firstn_all, skipn_all. cbn. now rewrite app_nil_r. Qed.
(** C33: maxsplit=n.  Of the list A that keep=ALTERNATING gives without a limit, the first
    n strings and separators stay (reverse: the last n), and the rest becomes one string. *)
Theorem C33_maxsplit : forall s o (reverse separate : bool) n, valid o ->
  exists A, multisplit s o Alternating (Some (-1)%Z) reverse separate StripFalse = Ok (map Str A) /\
    multisplit s o Alternating (Some (Z.of_nat n)) reverse separate StripFalse = Ok (map Str
      (if 2 * n <? length A then
         if reverse then concat (firstn (length A - 2 * n) A) :: skipn (length A - 2 * n) A
         else firstn (2 * n) A ++ [concat (skipn (2 * n) A)]
       else A)).
Proof.
  intros s o reverse separate n V.
  destruct (multisplit_all s o (Some (-1)%Z) reverse separate V) as (l & y & S & E).
  destruct (multisplit_all s o (Some (Z.of_nat n)) reverse separate V) as (l' & y' & S' & E').
  exists (alternating l y). rewrite E, E'. split; [reflexivity|]. cbn [present]. do 2 f_equal.
  assert (Ln : limit_of (Some (Z.of_nat n)) = Some n) by (cbn; destruct (Z.of_nat n =? -1)%Z eqn:Q; [apply Z.eqb_eq in Q; lia|now rewrite Nat2Z.id]).
  rewrite Ln in S'. destruct V as [_ V]. destruct reverse; cbn in S, S'.
  - apply rsplits_rev in S, S'; auto. destruct S as (a & b & S & Q), S' as (a' & b' & S' & Q').
    pose proof (splits_limit_alternating _ _ _ _ _ _ _ _ S S') as H.
    assert (R : forall L A : list str, L = rev (map (@rev chr) A) -> A = rev (map (@rev chr) L)).
    { clear. intros L A ->. rewrite map_rev, rev_involutive, map_map. rewrite (map_ext _ (fun x => x)) by (intros; apply rev_involutive). symmetry. apply map_id. }
    apply R in Q, Q'. assert (Len : length (alternating a b) = length (alternating l y)) by (rewrite Q; now rewrite rev_length, map_length).
    rewrite Q', H, Len. destruct (2 * n <? length (alternating l y)) eqn:C; [|congruence]. apply Nat.ltb_lt in C.
    rewrite Q. rewrite map_app, rev_app_distr. cbn [map rev app].
    set (A0 := alternating a b) in *. rewrite rev_length, map_length.
    assert (RA : rev (map (@rev chr) A0) = rev (map (@rev chr) (skipn (2 * n) A0)) ++ rev (map (@rev chr) (firstn (2 * n) A0)))
      by (rewrite <- rev_app_distr, <- map_app, firstn_skipn; reflexivity).
    rewrite RA.
    assert (L1 : length (rev (map (@rev chr) (skipn (2 * n) A0))) = length A0 - 2 * n) by (now rewrite rev_length, map_length, skipn_length).
    destruct (cut_here _ _ (rev (map (@rev chr) (firstn (2 * n) A0))) _ L1) as [F1 F2]. f_equal; [|symmetry; exact F2].
    etransitivity; [|symmetry; apply (f_equal (@concat chr) F1)]. clear - A0.
    induction (skipn (2 * n) A0) as [|x t IH]; cbn; auto. rewrite rev_app_distr, concat_app, IH. cbn. now rewrite app_nil_r.
  - rewrite (splits_limit_alternating _ _ _ _ _ _ _ _ S S'). reflexivity.
Qed.
Print Assumptions C33_maxsplit.
(** hence at most n+1 pieces *)
Theorem C33_at_most : forall s o keep (reverse separate : bool) n, valid o -> exists L,
  multisplit s o keep (Some (Z.of_nat n)) reverse separate StripFalse = Ok L /\
  length L <= (match keep with Alternating => 2 * n + 1 | _ => n + 1 end).
Proof.
  intros s o keep reverse separate n V.
  destruct (multisplit_all s o (Some (Z.of_nat n)) reverse separate V) as (l & y & S & E). rewrite E. eexists. split; [reflexivity|].
  assert (Ln : limit_of (Some (Z.of_nat n)) = Some n) by (cbn; destruct (Z.of_nat n =? -1)%Z eqn:Q; [apply Z.eqb_eq in Q; lia|now rewrite Nat2Z.id]).
  rewrite Ln in S.
  assert (B : length l <= n).
  { clear - S. destruct reverse; cbn in S; remember (Some n) as o'; revert n Heqo'; induction S; intros m Hm; subst; cbn; try lia; rewrite ?app_length; cbn;
    destruct m as [|m]; try congruence; specialize (IHS m eq_refl); lia. }
  destruct keep; cbn [present]; rewrite map_length, ?alternating_length, ?app_length, ?map_length; cbn [length];
    apply Nat.add_le_mono_r; try apply Nat.mul_le_mono_l; exact B.
Qed.
Print Assumptions C33_at_most.
Example C33_witness : multisplit (u "a.b.c.d") (Some [u "."]) Alternating (Some 2%Z) true true StripFalse = Ok (map Str [u "a.b"; u "."; u "c"; u "."; u "d"]).
Proof. vm_compute. reflexivity. Qed.

(** C34: with separate=False only the first and the last string can be empty. *)
Theorem C34_merged : forall s o maxsplit reverse, valid o -> exists l y,
  multisplit s o Alternating maxsplit reverse false StripFalse = Ok (map Str (flat_map (fun p : str * str => [fst p; snd p]) l ++ [y])) /\
  Forall (fun p : str * str => fst p <> []) (tl l) /\ Forall (fun p : str * str => snd p <> [] /\ of_seps (seps_of o) (snd p)) l.
Proof.
  intros s o m reverse V. destruct (multisplit_all s o m reverse false V) as (l & y & S & E). exists l, y. rewrite E. split; [reflexivity|].
  destruct V as [_ V]. destruct reverse; cbn in S.
  - split; [eapply rsplits_inner_nonempty; eauto|]. destruct (limit_of m) as [[|n]|] eqn:Q.
    + inversion S; subst; auto. congruence.
    + destruct (rsplits_clean _ _ _ _ _ V _ S) as (A & B & C); [discriminate|]. exact B.
    + destruct (rsplits_clean _ _ _ _ _ V _ S) as (A & B & C); [discriminate|]. exact B.
  - split; [eapply splits_inner_nonempty; eauto|]. destruct (splits_clean _ _ _ _ _ V _ S) as (A & _). eapply Forall_impl; [|exact A]. intros p [_ H]. exact H.
Qed.
Print Assumptions C34_merged.
(** The documented stronger claim, that with separate=False ALTERNATING never yields an empty
    string, is false. *)
Theorem C34_never_empty_refuted : multisplit (u " a ") None Alternating (Some (-1)%Z) false false StripFalse = Ok (map Str [u ""; u " "; u "a"; u " "; u ""]).
Proof. vm_compute. reflexivity. Qed.
Print Assumptions C34_never_empty_refuted.

(** C35: reverse=True is the mirror image, whatever the separators (the table of
    precomputed reversals included). *)
Definition mirror (l : list item) : list item :=
  rev (map (fun i => match i with Str a => Str (rev a) | Two a b => Two (rev b) (rev a) end) l).
Theorem C35_reverse_is_mirror : forall s seps keep maxsplit separate, valid (Some seps) -> keep = Alternating \/ keep = KeepFalse ->
  multisplit s (Some seps) keep maxsplit true separate StripFalse =
  rmap mirror (multisplit (rev s) (Some (map (@rev chr) seps)) keep maxsplit false separate StripFalse).
Proof.
  intros s seps keep m separate V K. destruct (multisplit_all s (Some seps) m true separate V) as (l & y & S & ->).
  assert (V' : valid (Some (map (@rev chr) seps))).
  { destruct V as [V1 V2]. split; cbn in *; [destruct seps; [congruence|discriminate]|]. now apply nonempty_rev. }
  destruct (multisplit_all (rev s) (Some (map (@rev chr) seps)) m false separate V') as (l' & y' & S' & ->). cbn [rmap]. f_equal.
  cbn in S, S'. apply splits_rev in S'. destruct S' as (l2 & y2 & S2 & Ea & Ef). rewrite rev_involutive in S2.
  destruct V as [_ V2]. destruct (rsplits_fun _ _ _ _ _ _ _ _ V2 S S2) as [<- <-].
  destruct K as [-> | ->]; cbn [present]; unfold mirror; rewrite ?Ea, ?Ef, ?map_rev, !map_map; reflexivity.
Qed.
Print Assumptions C35_reverse_is_mirror.
Theorem C35_builtin_table : forall seps, In seps (map fst reversed_builtin_separators) ->
  forall w, In w (reverse_separators seps) <-> In (rev w) seps.
Proof. intros seps _ w. rewrite (reverse_separators_same seps w). apply in_map_rev. Qed.
Print Assumptions C35_builtin_table.
Example C35_witness : multisplit (u "A x x Z") (Some [u " x "]) Alternating (Some (-1)%Z) true false StripFalse = Ok (map Str [u "A x"; u " x "; u "Z"]) /\
  multisplit ([97; 13; 10; 98])%N None Alternating (Some (-1)%Z) true true StripFalse = Ok (map Str [[97]; [13; 10]; [98]])%N.
Proof. split; vm_compute; reflexivity. Qed.
(** With strip=True it is not: the left end is stripped greedily from the left, the right
    end by a search that backtracks. *)
Theorem C35_mirror_with_strip_refuted : exists s seps, valid (Some seps) /\
  multisplit s (Some seps) KeepFalse (Some (-1)%Z) true true StripTrue <>
  rmap mirror (multisplit (rev s) (Some (map (@rev chr) seps)) KeepFalse (Some (-1)%Z) false true StripTrue).
Proof.
  exists (u "abc"), [u "ab"; u "a"; u "bc"]. split; [split; [discriminate|repeat constructor; discriminate]|]. vm_compute. discriminate.
Qed.
Print Assumptions C35_mirror_with_strip_refuted.

(** C36: multistrip removes separators (a) from the left and (b) from the right until the
    result neither starts nor ends with one, and nothing else - provided that a newline
    is a separator or s does not end with one. *)
Theorem C36_multistrip_partial : forall s seps left right, valid (Some seps) ->
  right = false \/ In [newline] seps \/ (forall t, s <> t ++ [newline]) ->
  exists a r b, multistrip s seps left right = Ok r /\ s = a ++ r ++ b /\ of_seps seps a /\ of_seps seps b /\
    (left = false -> a = []) /\ (right = false -> b = []) /\
    (left = true -> ~ starts_with_sep seps r) /\ (right = true -> ~ ends_with_sep seps r).
Proof.
  intros s seps left right [V1 V2] G. cbn in V1, V2. rewrite (multistrip_eq s seps left right V1 V2).
  assert (L : exists a s1, s1 = (if left then strip_left seps s else s) /\ s = a ++ s1 /\ of_seps seps a /\ (left = false -> a = []) /\ (left = true -> ~ starts_with_sep seps s1)).
  { destruct left.
    - destruct (strip_left_spec seps s V2) as (a & E & O & N). exists a. eexists. split; [reflexivity|]. repeat split; auto. discriminate.
    - exists [], s. repeat split; auto; try discriminate. exists []. auto. }
  destruct L as (a & s1 & E1 & E2 & Oa & La & Sa). rewrite <- E1. cbn zeta.
  destruct right.
  - destruct (strip_right_spec seps s1 V2) as (b & c & Es & Ob & Hc & Ne). set (r := strip_right seps s1) in *.
    assert (Oc : of_seps seps (b ++ c)).
    { destruct Hc as [->|[-> _]]; [now rewrite app_nil_r|]. destruct G as [G|[G|G]]; [discriminate| |].
      - destruct Ob as (l & F & ->). exists (l ++ [[newline]]). rewrite concat_app. cbn. split; auto. apply Forall_app. auto.
      - exfalso. apply (G (a ++ r ++ b)). rewrite E2. rewrite Es at 1. now rewrite <- !app_assoc. }
    exists a, r, (b ++ c). split; auto. rewrite E2. split; [now rewrite Es at 1|]. repeat split; auto; try discriminate.
    intros Hl (w & t & I & E). apply (Sa Hl). exists w, (t ++ b ++ c). split; auto. rewrite Es at 1. now rewrite E, <- app_assoc.
  - exists a, s1, []. rewrite app_nil_r. repeat split; auto; try discriminate. exists []. auto.
Qed.
Print Assumptions C36_multistrip_partial.
(** Otherwise it can remove a newline that is not a separator. *)
Theorem C36_multistrip_refuted : multistrip (u "abc " ++ [newline]) [u " "] true true = Ok (u "abc") /\ ~ of_seps [u " "] (u " " ++ [newline]).
Proof.
  split; [vm_compute; reflexivity|]. intros (l & F & E). assert (I : In newline (concat l)) by (rewrite <- E; cbn; auto).
  apply in_concat in I. destruct I as (w & I & J). rewrite Forall_forall in F. specialize (F w I). destruct F as [<-|[]]. cbn in J. destruct J as [J|[]]. discriminate.
Qed.
Print Assumptions C36_multistrip_refuted.
Theorem C36_multistrip_errors : forall s seps left right, (seps = [] \/ In [] seps) <-> multistrip s seps left right = Err ValueError.
Proof.
  intros s seps left right. unfold multistrip. destruct seps as [|w seps]; cbn [is_nil]; [split; auto|].
  destruct (existsb is_nil (w :: seps)) eqn:E.
  - split; auto. intros _. right. apply existsb_exists in E. destruct E as (x & I & Q). destruct x; [auto|discriminate].
  - split.
    + intros [H|H]; [discriminate|]. exfalso. apply not_true_iff_false in E. apply E. apply existsb_exists. exists []. auto.
    + destruct left, right; discriminate.
Qed.
Print Assumptions C36_multistrip_errors.
Example C36_witness : multistrip (u "xyxabyx") [u "x"; u "yx"] true true = Ok (u "yxab") \/ multistrip (u "xyxabyx") [u "x"; u "yx"] true true = Ok (u "ab").
Proof. right. vm_compute. reflexivity. Qed.

(** C37: multipartition returns 2*count+1 strings whose concatenation is s: strings and the
    separators between them, padded with empty strings. *)
Theorem C37_multipartition : forall s o count (reverse separate : bool), valid o -> (0 <= count)%Z ->
  exists l y pad,
    (if reverse then rsplits separate (seps_of o) (Some (Z.to_nat count)) s l y else splits separate (seps_of o) (Some (Z.to_nat count)) s l y) /\
    multipartition s o count reverse separate =
      Ok (if reverse then repeat [] pad ++ flat_map (fun p : str * str => [fst p; snd p]) l ++ [y] else (flat_map (fun p : str * str => [fst p; snd p]) l ++ [y]) ++ repeat [] pad) /\
    2 * length l + 1 + pad = 2 * Z.to_nat count + 1 /\ concat (flat_map (fun p : str * str => [fst p; snd p]) l ++ [y]) = s /\
    Forall (fun p : str * str => snd p <> [] /\ if separate then In (snd p) (seps_of o) else of_seps (seps_of o) (snd p)) l.
Proof.
  intros s o count reverse separate V C. destruct (multisplit_all s o (Some count) reverse separate V) as (l & y & S & E).
  assert (Ln : limit_of (Some count) = Some (Z.to_nat count)) by (cbn; destruct (count =? -1)%Z eqn:Q; auto; apply Z.eqb_eq in Q; lia).
  rewrite Ln in S. exists l, y, (2 * Z.to_nat count - 2 * length l).
  assert (B : length l <= Z.to_nat count).
  { clear - S. revert S. generalize (Z.to_nat count). intros n S. destruct reverse; cbn in S; remember (Some n) as o'; revert n Heqo'; induction S; intros m Hm; subst; cbn; try lia; rewrite ?app_length; cbn;
    destruct m as [|m]; try congruence; specialize (IHS m eq_refl); lia. }
  split; [exact S|]. split; [|split; [lia|split; [exact (from_concat _ _ _ _ _ _ _ S)|]]].
  - unfold multipartition. destruct (count <? 0)%Z eqn:Q; [apply Z.ltb_lt in Q; lia|]. rewrite E. cbn [present]. rewrite strs_Str.
    rewrite alternating_length. replace (2 * Z.to_nat count + 1 - (2 * length l + 1)) with (2 * Z.to_nat count - 2 * length l) by lia. reflexivity.
  - destruct V as [_ V]. destruct reverse; cbn in S.
    + destruct (Z.to_nat count) as [|n]; [inversion S; subst; auto; congruence|]. destruct (rsplits_clean _ _ _ _ _ V _ S) as (_ & B' & _); [discriminate|exact B'].
    + destruct (splits_clean _ _ _ _ _ V _ S) as (A & _). eapply Forall_impl; [|exact A]. intros p [_ H]. exact H.
Qed.
Print Assumptions C37_multipartition.
Theorem C37_multirpartition : forall s o count (reverse separate : bool),
  multirpartition s o count reverse separate = multipartition s o count (negb reverse) separate.
Proof. reflexivity. Qed.
Print Assumptions C37_multirpartition.
Theorem C37_negative_count : forall s o count (reverse separate : bool), (count < 0)%Z -> multipartition s o count reverse separate = Err ValueError.
Proof. intros. unfold multipartition. destruct (Z.ltb_spec count 0); [reflexivity|lia]. Qed.
Print Assumptions C37_negative_count.
Example C37_witness : multipartition (u "aXYbYXc") (Some [u "X"; u "Y"]) 2 false true = Ok [u "a"; u "X"; u ""; u "Y"; u "bYXc"] /\
  multirpartition (u "aXb") (Some [u "X"; u "Y"]) 2 false true = Ok [u ""; u ""; u "a"; u "X"; u "b"].
Proof. split; vm_compute; reflexivity. Qed.

(** C38: normalize_whitespace replaces every maximal run of whitespace characters by the
    replacement string ([squeeze]: p are the characters replaced). *)
Fixpoint replace_runs (p : chr -> bool) (replacement : str) (in_run : bool) (s : str) : str :=
  match s with
  | [] => []
  | c :: t => if p c then (if in_run then [] else replacement) ++ replace_runs p replacement true t
              else c :: replace_runs p replacement false t
  end.
Definition default_space (o : option str) : str := match o with None => [32%N] | Some r => r end.
Lemma whitespace_class seps : seps = str_whitespace_without_crlf \/ seps = str_whitespace -> class_like is_space seps.
Proof.
  intros H. assert (Q : forallb (fun w => negb (is_nil w) && forallb is_space w) seps = true) by (destruct H as [-> | ->]; vm_compute; reflexivity).
  split.
  - intros w I. rewrite forallb_forall in Q. specialize (Q w I). apply andb_true_iff in Q. destruct Q as [Q1 Q2]. split; auto. intros ->. discriminate.
  - intros c P. assert (I : In c (map (fun w => hd 0%N w) str_whitespace_without_crlf)).
    { unfold is_space, between in P. rewrite !orb_true_iff, !andb_true_iff, !N.leb_le, !N.eqb_eq in P. vm_compute. lia. }
    assert (In [c] str_whitespace_without_crlf) by (vm_compute in I; vm_compute; intuition congruence).
    destruct H as [-> | ->]; auto. vm_compute in H0. vm_compute. intuition.
Qed.
Lemma squeeze_runs p r : forall s b, squeeze p r b s = replace_runs p r b s.
Proof. reflexivity. Qed.
Theorem C38_normalize : forall s r, normalize_whitespace s None r = Ok (replace_runs is_space (default_space r) false s).
Proof.
  intros s r. unfold normalize_whitespace. fold (default_space r). rewrite <- squeeze_runs. destruct s as [|c s]; [reflexivity|]. cbn [is_nil].
  destruct (forallb is_space (c :: s)) eqn:A; [rewrite squeeze_all by exact A; reflexivity|].
  destruct (fast_squeeze (default_space r) _ A) as [_ ->]. f_equal. unfold trail, ends_with_space.
  destruct (starts_with_space (c :: s)), (starts_with_space (rev (c :: s))); cbn [app]; rewrite ?app_nil_r; reflexivity.
Qed.
Print Assumptions C38_normalize.
(** the general path, for any separators that amount to a character class: in particular
    the fast path and the general path agree *)
Theorem C38_normalize_general : forall p s seps r, class_like p seps -> seps <> [] ->
  normalize_whitespace s (Some seps) r = Ok (replace_runs p (default_space r) false s).
Proof.
  intros p s seps r C NN. unfold normalize_whitespace. fold (default_space r).
  assert (NE : Forall (fun w : str => w <> []) seps) by (eapply class_nonempty; eauto).
  assert (Ex : existsb is_nil seps = false).
  { apply not_true_iff_false. intros H. apply existsb_exists in H. destruct H as (x & I & E). destruct x; [|discriminate]. rewrite Forall_forall in NE. exact (NE _ I eq_refl). }
  rewrite Ex. destruct seps as [|w seps]; [congruence|]. cbn [is_nil]. destruct s as [|c s]; [reflexivity|]. cbn [is_nil].
  destruct (multisplit_spec (c :: s) (w :: seps) KeepFalse (Some (-1)%Z) false false NN NE) as (l & y & S & ->). cbn [present]. rewrite strs_Str. f_equal.
  rewrite <- squeeze_runs. eapply join_squeeze; eauto.
Qed.
Print Assumptions C38_normalize_general.
Theorem C38_paths_agree : forall s r seps, seps = str_whitespace_without_crlf \/ seps = str_whitespace ->
  normalize_whitespace s (Some seps) r = normalize_whitespace s None r.
Proof.
  intros s r seps H. rewrite C38_normalize. apply C38_normalize_general; [now apply whitespace_class|]. destruct H as [-> | ->]; discriminate.
Qed.
Print Assumptions C38_paths_agree.
(** for arbitrary separators: join the unlimited split with the replacement *)
Theorem C38_normalize_any : forall s seps r, valid (Some seps) -> exists l y, splits false seps None s l y /\
  normalize_whitespace s (Some seps) r = Ok (match s with [] => [] | _ => join (default_space r) (map fst l ++ [y]) end).
Proof.
  intros s seps r [V1 V2]. cbn in V1, V2. destruct (multisplit_spec s seps KeepFalse (Some (-1)%Z) false false V1 V2) as (l & y & S & E). exists l, y. split; [exact S|].
  unfold normalize_whitespace. fold (default_space r).
  assert (Ex : existsb is_nil seps = false).
  { apply not_true_iff_false. intros H. apply existsb_exists in H. destruct H as (x & I & Q). destruct x; [|discriminate]. rewrite Forall_forall in V2. exact (V2 _ I eq_refl). }
  rewrite Ex. destruct seps as [|w seps]; [congruence|]. cbn [is_nil]. destruct s as [|c s]; [reflexivity|]. cbn [is_nil]. rewrite E. cbn [present]. now rewrite strs_Str.
Qed.
Print Assumptions C38_normalize_any.
Theorem C38_idempotent : forall s t, normalize_whitespace s None None = Ok t -> normalize_whitespace t None None = Ok t.
Proof. intros s t. rewrite !C38_normalize. intros [= <-]. rewrite <- !squeeze_runs. f_equal. apply squeeze_idem. Qed.
Print Assumptions C38_idempotent.
Example C38_witness : normalize_whitespace ([32; 9; 97; 13; 10; 98; 32])%N None (Some (u "-")) = Ok (u "-a-b-").
Proof. vm_compute. reflexivity. Qed.
