(** C145: the laws of multipartition. *)
From Verif Require Import PyBase PyStr SplitModel SplitSpec SplitProof SplitProof2 SplitProof3 SplitProof7 SplitProps.
Local Open Scope nat_scope.

Lemma splits_short (separate : bool) seps n s l y : splits separate seps n s l y -> forall a, n = Some a -> length l < a -> forall b, a <= b -> splits separate seps (Some b) s l y.
Proof.
  induction 1 as [s|n s F|n x w t l y Hn Lf O Sp IH]; intros a E L b AB.
  - injection E as <-. cbn in L. lia.
  - now apply split_none.
  - subst n. cbn [length] in L. destruct a as [|a]; [lia|]. destruct b as [|b]; [lia|]. apply split_cut; auto; [discriminate|]. cbn. apply (IH a); [reflexivity|lia|lia].
Qed.
Lemma repeat_snoc p : repeat ([] : str) p ++ [[]] = repeat [] (S p).
Proof. induction p as [|p IH]; [reflexivity|]. cbn [repeat app] in *. now rewrite IH. Qed.
Lemma rev_repeat p : rev (map (@rev chr) (repeat ([] : str) p)) = repeat [] p.
Proof. induction p as [|p IH]; [reflexivity|]. cbn [repeat map rev]. rewrite IH. apply repeat_snoc. Qed.
Lemma alternating_eq l y : flat_map (fun p : str * str => [fst p; snd p]) l ++ [y] = alternating l y.
Proof. reflexivity. Qed.
Lemma part_of_nil o n (separate : bool) : valid o -> (0 <= n)%Z -> multipartition [] o n false separate = Ok (repeat [] (2 * Z.to_nat n + 1)).
Proof.
  intros V N. destruct (C37_multipartition [] o n false separate V N) as (l & y & pad & _ & E & L & C & F). rewrite E. destruct l as [|[a b] l].
  - cbn in C. rewrite app_nil_r in C. subst y. cbn [length] in L. f_equal. rewrite <- L. reflexivity.
  - exfalso. inversion F as [|? ? [Hb _] _]; subst. cbn in C, Hb. destruct a; [|discriminate]. cbn in C. destruct b; [congruence|discriminate].
Qed.

(** multipartition(s, seps, n), and then multipartition(last string, seps, m) in place of the last string, is multipartition(s, seps, n + m). *)
Theorem C145_continue : forall s o (separate : bool) n m, valid o -> (0 <= n)%Z -> (0 <= m)%Z ->
  exists A x B, multipartition s o n false separate = Ok (A ++ [x]) /\ multipartition x o m false separate = Ok B /\ multipartition s o (n + m) false separate = Ok (A ++ B).
Proof.
  intros s o separate n m V N M.
  destruct (C37_multipartition s o n false separate V N) as (l & y & pad & S & E & L & _ & _).
  destruct (C37_multipartition s o (n + m) false separate V ltac:(lia)) as (l2 & y2 & pad2 & S2 & E2 & L2 & _ & _).
  assert (NM : Z.to_nat (n + m) = Z.to_nat n + Z.to_nat m) by lia. rewrite NM in S2, L2.
  destruct pad as [|pad].
  - destruct (C37_multipartition y o m false separate V M) as (l' & y' & pad' & S' & E' & L' & _ & _).
    pose proof (splits_continue _ _ _ _ _ _ S _ _ _ S') as S3. cbn [option_map] in S3. destruct (proj1 (C32_split_is_unique _ _ _ _ _ _ _ _ (proj2 V)) S2 S3) as [-> ->].
    exists (flat_map (fun p : str * str => [fst p; snd p]) l), y, ((flat_map (fun p : str * str => [fst p; snd p]) l' ++ [y']) ++ repeat [] pad').
    rewrite E, E', E2. cbn [repeat]. rewrite app_nil_r, app_length in *. split; auto. split; auto. f_equal. rewrite flat_map_app, <- !app_assoc. do 4 f_equal. lia.
  - pose proof (splits_short _ _ _ _ _ _ S _ eq_refl ltac:(lia) (Z.to_nat n + Z.to_nat m) ltac:(lia)) as S3. destruct (proj1 (C32_split_is_unique _ _ _ _ _ _ _ _ (proj2 V)) S2 S3) as [-> ->].
    exists ((flat_map (fun p : str * str => [fst p; snd p]) l ++ [y]) ++ repeat [] pad), [], (repeat [] (2 * Z.to_nat m + 1)).
    rewrite E, E2, part_of_nil by auto. split; [|split; auto].
    + f_equal. etransitivity; [|apply app_assoc]. apply f_equal. symmetry. apply repeat_snoc.
    + rewrite <- !app_assoc. do 3 f_equal. rewrite <- repeat_app. cbn [app]. f_equal. f_equal. lia.
Qed.
Print Assumptions C145_continue.

(** multipartition from the right is multipartition of the reversed string with reversed separators, the other way round. *)
Theorem C145_mirror : forall s seps (separate : bool) n, valid (Some seps) -> (0 <= n)%Z ->
  exists r, multipartition s (Some seps) n true separate = Ok r /\ multipartition (rev s) (Some (map (@rev chr) seps)) n false separate = Ok (rev (map (@rev chr) r)).
Proof.
  intros s seps separate n V N. assert (V' : valid (Some (map (@rev chr) seps))).
  { destruct V as [V1 V2]. cbn in *. split; [destruct seps; [congruence|discriminate]|]. apply Forall_forall. intros w I. apply in_map_iff in I. destruct I as (v & <- & I). rewrite Forall_forall in V2. intros Q. apply (V2 v I).
    rewrite <- (rev_involutive v), Q. reflexivity. }
  destruct (C37_multipartition s (Some seps) n true separate V N) as (l & y & pad & S & E & L & _ & _).
  destruct (C37_multipartition (rev s) (Some (map (@rev chr) seps)) n false separate V' N) as (l' & y' & pad' & S' & E' & L' & _ & _).
  eexists. split; [exact E|]. rewrite E'. f_equal.
  destruct (rsplits_rev _ _ _ _ _ _ (proj2 V) S) as (l1 & y1 & S1 & Q). destruct (proj1 (C32_split_is_unique _ _ _ _ _ _ _ _ (proj2 V')) S' S1) as [-> ->].
  rewrite !alternating_eq, map_app, rev_app_distr, Q. f_equal.
  assert (length (alternating l1 y1) = length (alternating l y)) by (rewrite Q, rev_length, map_length; auto). rewrite !alternating_length in H.
  assert (pad' = pad) as -> by lia. symmetry. apply rev_repeat.
Qed.
Print Assumptions C145_mirror.

Lemma map_rev_rev (A : list str) : map (@rev chr) (map (@rev chr) A) = A.
Proof. rewrite map_map. rewrite (map_ext _ (fun x => x)) by (intros; apply rev_involutive). apply map_id. Qed.
Lemma flip (A B : list str) : rev (map (@rev chr) A) = B -> A = rev (map (@rev chr) B).
Proof. intros <-. now rewrite map_rev, rev_involutive, map_rev_rev. Qed.
Lemma part_seps_of s o n (reverse separate : bool) : multipartition s o n reverse separate = multipartition s (Some (seps_of o)) n reverse separate.
Proof. unfold multipartition. now rewrite multisplit_seps_of. Qed.
(** From the right: what is put in place is the first string. *)
Theorem C145_continue_right : forall s o (separate : bool) n m, valid o -> (0 <= n)%Z -> (0 <= m)%Z ->
  exists x A B, multipartition s o n true separate = Ok (x :: A) /\ multipartition x o m true separate = Ok B /\
    multipartition s o (n + m) true separate = Ok (B ++ A).
Proof.
  intros s o separate n m V N M. rewrite !(part_seps_of _ o). set (seps := seps_of o) in *.
  enough (G : exists x A B, multipartition s (Some seps) n true separate = Ok (x :: A) /\ multipartition x (Some seps) m true separate = Ok B /\
    multipartition s (Some seps) (n + m) true separate = Ok (B ++ A)) by (destruct G as (x & A & B & G1 & G2 & G3); exists x, A, B; rewrite (part_seps_of x o); auto).
  change (valid (Some seps)) in V. assert (V' : valid (Some (map (@rev chr) seps))).
  { destruct V as [V1 V2]. cbn in *. split; [destruct seps; [congruence|discriminate]|]. apply Forall_forall. intros w I. apply in_map_iff in I. destruct I as (v & <- & I). rewrite Forall_forall in V2. intros Q. apply (V2 v I).
    rewrite <- (rev_involutive v), Q. reflexivity. }
  destruct (C145_mirror s seps separate n V N) as (r1 & E1 & F1). destruct (C145_mirror s seps separate (n + m) V ltac:(lia)) as (r3 & E3 & F3).
  destruct (C145_continue (rev s) (Some (map (@rev chr) seps)) separate n m V' N M) as (A & x & B & H1 & H2 & H3).
  destruct (C145_mirror (rev x) seps separate m V M) as (r2 & E2 & F2). rewrite rev_involutive in F2.
  rewrite F1 in H1. rewrite F2 in H2. rewrite F3 in H3. injection H1 as H1. injection H2 as H2. injection H3 as H3. apply flip in H1, H2, H3.
  exists (rev x), (rev (map (@rev chr) A)), (rev (map (@rev chr) B)). rewrite E1, E2, E3, H1, H3, H2, !map_app, !rev_app_distr. split; [reflexivity|split; reflexivity].
Qed.
Print Assumptions C145_continue_right.

(** So multipartition(s, seps, n) is what n calls with count 1 give, each for what the one before it left over. *)
Fixpoint one_at_a_time (n : nat) (s : str) (o : option (list str)) (separate : bool) : result (list str) :=
  match n with
  | 0 => Ok [s]
  | S n => rbind (multipartition s o 1 false separate) (fun r => match r with [a; b; c] => rmap (fun l => a :: b :: l) (one_at_a_time n c o separate) | _ => Err ValueError end)
  end.
Theorem C145_one_at_a_time : forall n s o (separate : bool), valid o -> multipartition s o (Z.of_nat n) false separate = one_at_a_time n s o separate.
Proof.
  induction n as [|n IH]; intros s o separate V.
  - destruct (C37_multipartition s o 0 false separate V ltac:(lia)) as (l & y & pad & _ & E & L & C & _). change (Z.of_nat 0) with 0%Z. rewrite E. destruct l as [|p l]; [|cbn in L; lia].
    assert (pad = 0) as -> by (cbn in L; lia). cbn in C |- *. rewrite app_nil_r in C. now rewrite C.
  - destruct (C145_continue s o separate 1 (Z.of_nat n) V ltac:(lia) ltac:(lia)) as (A & x & B & H1 & H2 & H3).
    replace (Z.of_nat (S n)) with (1 + Z.of_nat n)%Z by lia. rewrite H3. cbn [one_at_a_time].
    destruct (C37_multipartition s o 1 false separate V ltac:(lia)) as (l & y & pad & _ & E & L & C & _). change (2 * Z.to_nat 1 + 1) with 3 in L.
    assert (LA : length A = 2).
    { rewrite E in H1. injection H1 as H1. apply (f_equal (@length str)) in H1. rewrite !app_length, repeat_length in H1. cbn [length] in H1. assert (LF : length (flat_map (fun p : str * str => [fst p; snd p]) l) = 2 * length l) by (clear; induction l; cbn; lia). lia. }
    destruct A as [|a [|b [|? ?]]]; cbn in LA; try lia. rewrite H1. cbn [app rbind]. rewrite <- IH by auto. rewrite H2. reflexivity.
Qed.
Print Assumptions C145_one_at_a_time.
(** A larger count only goes on: the first strings stay as they are. *)
Theorem C145_prefix : forall s o (separate : bool) n m, valid o -> (0 <= n <= m)%Z ->
  exists r r', multipartition s o n false separate = Ok r /\ multipartition s o m false separate = Ok r' /\ firstn (2 * Z.to_nat n) r' = firstn (2 * Z.to_nat n) r.
Proof.
  intros s o separate n m V H. destruct (C145_continue s o separate n (m - n) V ltac:(lia) ltac:(lia)) as (A & x & B & H1 & H2 & H3). replace (n + (m - n))%Z with m in H3 by lia.
  exists (A ++ [x]), (A ++ B). split; auto. split; auto.
  destruct (C37_multipartition s o n false separate V ltac:(lia)) as (l & y & pad & _ & E & L & _).
  assert (LA : length A = 2 * Z.to_nat n).
  { rewrite E in H1. injection H1 as H1. apply (f_equal (@length str)) in H1. rewrite !app_length, repeat_length in H1. cbn [length] in H1. assert (LF : length (flat_map (fun p : str * str => [fst p; snd p]) l) = 2 * length l) by (clear; induction l; cbn; lia). lia. }
  rewrite <- LA, !firstn_app, Nat.sub_diag. now rewrite !firstn_O.
Qed.
Print Assumptions C145_prefix.
Example C145_witness :
  multipartition (u "a b c d") None 1 false true = Ok [u "a"; u " "; u "b c d"] /\ multipartition (u "b c d") None 4 false true = Ok (map u ["b"; " "; "c"; " "; "d"; ""; ""; ""; ""]%string) /\
  multipartition (u "a b c d") None 5 false true = Ok (map u ["a"; " "; "b"; " "; "c"; " "; "d"; ""; ""; ""; ""]%string) /\
  multipartition (u "aab") (Some [u "aa"; u "ab"]) 1 true true = Ok [u "a"; u "ab"; u ""] /\ multipartition (u "a") (Some [u "aa"; u "ab"]) 1 true true = Ok [u ""; u ""; u "a"].
Proof. repeat split; vm_compute; reflexivity. Qed.
