(** Proofs about reversed_re_finditer and the partitions: plain patterns. *)
From Verif Require Import PyBaseProof RefindModel RefindSpec RefindProof.
From Coq Require Import Lia.

(** [l] are the matches of a forward search that lie before [top], the last one first *)
Fixpoint below (p : pattern) (s : str) (top : nat) (l : list span) : Prop :=
  match l with
  | [] => forall q, q < top -> p_match p s q (length s) = None
  | (a, e) :: l => e <= top /\ p_match p s a (length s) = Some e /\ (forall q, e <= q < top -> p_match p s q (length s) = None) /\ below p s a l
  end.

Lemma skipn_skipn A (l : list A) : forall b a, skipn a (skipn b l) = skipn (a + b) l.
Proof.
  induction l as [|x l IH]; intros [|b] a; cbn [skipn]; rewrite ?skipn_nil; auto.
  - rewrite Nat.add_0_r; auto.
  - rewrite <- plus_n_Sm. apply IH.
Qed.
Lemma between_firstn (s : str) a e e' : a <= e' -> e' <= e -> between s a e' = firstn (e' - a) (between s a e).
Proof. intros L L'. unfold between. rewrite firstn_firstn. f_equal. lia. Qed.
Lemma between_length (s : str) a e : e <= length s -> length (between s a e) = e - a.
Proof. intros L. unfold between. rewrite firstn_length, skipn_length. lia. Qed.

Section Plain.
  Context (p : pattern) (s : str) (PLAIN : plain p s).
  Notation n := (length s).

  Lemma plain_range a e x : p_match p s a e = Some x -> a < x <= e /\ x <= n.
  Proof.
    destruct PLAIN as (m & M & E & _). rewrite E. destruct (Nat.leb_spec a e); [|discriminate].
    destruct (m _) as [k|] eqn:K; cbn; [|discriminate]. intros H0; injection H0 as <-.
    apply (pm_range _ M) in K. rewrite between_length in K by lia. lia.
  Qed.
  Lemma plain_sane : sane p s.
  Proof.
    split; intros a e x H.
    - apply plain_range in H; lia.
    - destruct PLAIN as (m & M & _ & E). rewrite E in H. apply plain_range in H; lia.
  Qed.
  Lemma plain_stable a e e' x : p_match p s a e = Some x -> x <= e' <= e -> p_match p s a e' = Some x.
  Proof.
    intros H L. pose proof (plain_range _ _ _ H) as R. destruct PLAIN as (m & M & E & _). rewrite E in *.
    destruct (Nat.leb_spec a e); [|discriminate]. destruct (Nat.leb_spec a e'); [|lia].
    destruct (m (between s a (min e n))) as [k|] eqn:K; cbn in H; [|discriminate]. injection H as H.
    rewrite (between_firstn s a (min e n) (min e' n)) by lia. erewrite (pm_stable _ M) by (eauto; lia). cbn; f_equal; auto.
  Qed.
  Lemma plain_monotone a e e' : p_match p s a e' <> None -> e' <= e -> p_match p s a e <> None.
  Proof.
    intros H L. destruct PLAIN as (m & M & E & _). rewrite E in *.
    destruct (Nat.leb_spec a e'); [|congruence]. destruct (Nat.leb_spec a e); [|lia].
    destruct (Nat.le_gt_cases a n) as [An|An].
    - rewrite (between_firstn s a (min e n) (min e' n)) in H by lia.
      pose proof (pm_monotone _ M (between s a (min e n)) (min e' n - a)) as K. destruct (m (firstn _ _)) as [k|]; [|cbn in H; congruence].
      intros Z. apply K; [discriminate|]. destruct (m (between s a (min e n))); [discriminate Z|reflexivity].
    - unfold between in *. rewrite skipn_all2 in * by lia. rewrite firstn_nil in *. auto.
  Qed.
  Lemma plain_none a e e' : p_match p s a e = None -> e' <= e -> p_match p s a e' = None.
  Proof.
    intros H L. destruct (p_match p s a e') eqn:E; auto. exfalso. apply (plain_monotone a e e'); auto. congruence.
  Qed.
  (** the same text is matched elsewhere *)
  Lemma plain_text a e x b : p_match p s a e = Some x -> b + (x - a) <= n -> between s b (b + (x - a)) = between s a x -> p_match p s b (b + (x - a)) = Some (b + (x - a)).
  Proof.
    intros H L B. pose proof (plain_range _ _ _ H) as R. pose proof (plain_stable a e x x H ltac:(lia)) as K.
    destruct PLAIN as (m & M & E & _). rewrite E in *. destruct (Nat.leb_spec a x); [|discriminate].
    destruct (Nat.leb_spec b (b + (x - a))); [|lia].
    replace (min x n) with x in K by lia. replace (min (b + (x - a)) n) with (b + (x - a)) by lia. rewrite B.
    destruct (m (between s a x)) as [k|]; cbn in *; [|discriminate]. injection K as K. f_equal. lia.
  Qed.

  Lemma search_plain count : forall advance pos, pos + count = S n ->
    match search_from p s advance pos count with
    | None => forall q, pos <= q -> p_match p s q n = None
    | Some (a, e) => pos <= a /\ p_match p s a n = Some e /\ forall q, pos <= q < a -> p_match p s q n = None
    end.
  Proof.
    induction count as [|count IH]; cbn [search_from]; intros advance pos L.
    - intros q Lq. destruct (p_match p s q n) eqn:E; auto. apply plain_range in E. lia.
    - assert (ADV : (if advance then p_match_nonempty p s pos n else p_match p s pos n) = p_match p s pos n).
      { destruct PLAIN as (m & _ & _ & NE). destruct advance; auto. }
      rewrite ADV. destruct (p_match p s pos n) as [e|] eqn:E; [repeat split; auto; intros; lia|].
      specialize (IH false (S pos) ltac:(lia)). destruct (search_from p s false (S pos) count) as [[a x]|].
      + destruct IH as (A & B & C). repeat split; auto; [lia|]. intros q Lq. destruct (Nat.eq_dec q pos) as [->|]; auto. apply C; lia.
      + intros q Lq. destruct (Nat.eq_dec q pos) as [->|]; auto. apply IH; lia.
  Qed.

  Lemma finditer_forward fuel : forall advance pos, n < fuel + pos -> pos <= S n -> leftmost p s pos (finditer_from fuel p s advance pos).
  Proof.
    induction fuel as [|fuel IH]; cbn [finditer_from]; intros advance pos L L2.
    - cbn. intros q Lq. destruct (p_match p s q n) eqn:E; auto. apply plain_range in E. lia.
    - pose proof (search_plain (S n - pos) advance pos ltac:(lia)) as H. destruct (search_from _ _ _ _ _) as [[a e]|]; [|exact H].
      destruct H as (A & B & C). cbn [leftmost]. repeat split; auto. pose proof (plain_range _ _ _ B). apply IH; lia.
  Qed.
  Lemma finditer_plain : leftmost p s 0 (finditer p s).
  Proof. apply finditer_forward; lia. Qed.

  Lemma forward_below : forall l pos, leftmost p s pos l -> forall acc, below p s pos acc -> below p s n (rev l ++ acc).
  Proof.
    induction l as [|[a e] l IH]; cbn [leftmost rev app]; intros pos F acc B.
    - destruct acc as [|[a e] acc]; cbn [below] in *.
      + intros q Lq. destruct (Nat.lt_ge_cases q pos); auto.
      + destruct B as (B1 & B2 & B3 & B4). pose proof (plain_range _ _ _ B2). repeat split; auto; [lia|].
        intros q Lq. destruct (Nat.lt_ge_cases q pos); auto. apply B3; lia.
    - destruct F as (F1 & F2 & F3 & F4). rewrite <- app_assoc. cbn [app]. apply IH with e; auto. cbn [below]. repeat split; auto; [intros; lia|].
      destruct acc as [|[a' e'] acc]; cbn [below] in *.
      + intros q Lq. destruct (Nat.lt_ge_cases q pos); auto.
      + destruct B as (B1 & B2 & B3 & B4). repeat split; auto; [lia|]. intros q Lq. destruct (Nat.lt_ge_cases q pos); [apply B3; lia|apply F3; lia].
  Qed.

  Lemma forward_ascending : forall l pos, leftmost p s pos l -> ascending tuple_ltb l /\ Forall (fun m => pos < snd m) l.
  Proof.
    unfold ascending. induction l as [|[a e] l IH]; cbn [leftmost]; intros pos F; [split; constructor|].
    destruct F as (F1 & F2 & F3 & F4). destruct (IH _ F4) as [A B]. pose proof (plain_range _ _ _ F2). split.
    - constructor; auto. eapply Forall_impl; [|exact B]. intros [c d]; cbn [snd]; intros L. unfold tuple_ltb; cbn [fst snd].
      destruct (Nat.ltb_spec d e), (Nat.eqb_spec d e); try lia; auto.
    - constructor; cbn [snd]; [lia|]. eapply Forall_impl; [|exact B]. cbn; intros; lia.
  Qed.

  Lemma scan_in prev count : forall pos q y, In (q, y) (scan p s prev pos count) <-> pos <= q < pos + count /\ p_match p s q prev = Some y.
  Proof.
    induction count as [|count IH]; cbn [scan]; intros pos q y; [cbn; lia|].
    destruct (p_match p s pos prev) as [x|] eqn:E.
    - cbn [In]. rewrite IH. split.
      + intros [H|H]; [injection H as <- <-|]; intuition lia.
      + intros [L H]. destruct (Nat.eq_dec pos q) as [->|]; [left; congruence|right; intuition lia].
    - rewrite IH. split; [intuition lia|]. intros [L H]. split; auto. destruct (Nat.eq_dec pos q) as [->|]; [congruence|lia].
  Qed.
  Lemma truncate_in prev : forall l q y, In (q, y) (truncate p s prev l) <-> exists y', In (q, y') l /\ q <= prev /\ (if y' <=? prev then y = y' else p_match p s q prev = Some y).
  Proof.
    induction l as [|[a e] l IH]; cbn [truncate]; intros q y.
    - cbn. split; [tauto|]. intros (y' & [] & _).
    - assert (K : (exists y', In (q, y') ((a, e) :: l) /\ q <= prev /\ (if y' <=? prev then y = y' else p_match p s q prev = Some y)) <->
        (a = q /\ q <= prev /\ (if e <=? prev then y = e else p_match p s q prev = Some y)) \/ In (q, y) (truncate p s prev l)).
      { rewrite IH. cbn [In]. split.
        - intros (y' & [H|H] & H2); [injection H as <- <-; left; auto|right; eauto].
        - intros [(-> & H)|(y' & H & H2)]; eauto. }
      rewrite K. destruct (Nat.ltb_spec prev a); [intuition lia|]. destruct (Nat.leb_spec e prev).
      + cbn [In]. split; [intros [I|I]; [injection I as <- <-|]; auto|intros [(-> & _ & ->)|I]; auto].
      + destruct (p_match p s a prev) as [x|] eqn:E.
        * cbn [In]. split; [intros [I|I]; [injection I as <- <-|]; auto|intros [(-> & _ & I)|I]; auto]. left; congruence.
        * split; auto. intros [(-> & _ & I)|I]; auto. congruence.
  Qed.

  (** the matches [ov] are those that start at [B] or later, in the text before [prev'] and not at [prev] *)
  Definition holds (B prev prev' : nat) (ov : list span) : Prop := forall q y, In (q, y) ov <-> B <= q /\ q <> prev /\ p_match p s q prev' = Some y.

  Lemma truncate_plain B prev prev' ov : prev <= prev' -> holds B prev prev' ov -> forall q y, In (q, y) (truncate p s prev ov) <-> B <= q /\ p_match p s q prev = Some y.
  Proof.
    intros L H q y. rewrite truncate_in. split.
    - intros (y' & I & Lq & K). apply H in I as (I1 & I2 & I3). split; auto.
      destruct (Nat.leb_spec y' prev); [subst y'; eapply plain_stable; eauto|exact K].
    - intros (Lq & M). pose proof (plain_range _ _ _ M) as R.
      destruct (p_match p s q prev') as [y'|] eqn:M'; [|exfalso; apply (plain_monotone q prev' prev); auto; congruence].
      exists y'. split; [apply H; repeat split; auto; lia|]. split; [lia|]. destruct (Nat.leb_spec y' prev); auto.
      apply plain_stable with (e' := prev) in M'; [congruence|lia].
  Qed.

  Lemma loop_searched fuel : forall matches ov prev B prev', length ov + length matches * S n < fuel -> B <= prev -> prev <= prev' -> prev' <= n ->
    NoDup (map fst ov) -> holds B prev prev' ov -> below p s B matches ->
    searched p s prev (fst (reversed_loop fuel p s matches ov prev)).
  Proof.
    induction fuel as [|fuel IH]; intros matches ov prev B prev' LF LB Lp Ln ND H BL; [lia|]. cbn [reversed_loop].
    pose proof (truncate_plain B prev prev' ov Lp H) as T.
    assert (FO : Forall (genuine p s) ov).
    { apply Forall_forall. intros [q y] I. apply H in I as (_ & _ & I). exists prev'; cbn; auto. }
    destruct (truncate_spec p s plain_sane prev ov ltac:(lia) FO ND) as (_ & TN & _ & TL & _).
    set (st := match truncate p s prev ov with [] => _ | _ => _ end).
    assert (ST : exists B', B' <= B /\ (forall q y, In (q, y) (fst st) <-> B' <= q /\ p_match p s q prev = Some y) /\ NoDup (map fst (fst st)) /\ below p s B' (snd st) /\
      length (fst st) + length (snd st) * S n <= fuel /\ (fst st = [] -> B' = 0 \/ (forall q, q < B' -> p_match p s q n = None))).
    { unfold st. destruct (truncate p s prev ov) as [|t ts] eqn:ET.
      - destruct matches as [|[a e] matches]; cbn [next_viable].
        + exists B. cbn [fst snd]. split; [lia|]. split; [exact T|]. split; [constructor|]. split; [exact BL|]. split; [cbn; lia|auto].
        + cbn [below] in BL. destruct BL as (B1 & B2 & B3 & B4). cbn [snd]. destruct (Nat.leb_spec e prev); [|lia].
          pose proof (plain_range _ _ _ B2) as R. cbn [fst snd]. exists a. split; [lia|].
          destruct (scan_spec p s plain_sane prev (min e prev - S a) ltac:(lia) (S a)) as (_ & SB & _ & SD & SE).
          split; [|split; [|split; [|split]]]; auto.
          * intros q y. cbn [In]. rewrite scan_in. replace (min e prev) with e by lia. split.
            -- intros [K|[L K]]; [injection K as <- <-; split; auto; eapply plain_stable; eauto; lia|split; [lia|auto]].
            -- intros [L K]. destruct (Nat.eq_dec a q) as [<-|NE].
               ++ left. f_equal. apply plain_stable with (e' := prev) in B2; [congruence|lia].
               ++ right. split; auto. destruct (Nat.lt_ge_cases q e) as [|Le]; [lia|]. exfalso.
                  destruct (Nat.lt_ge_cases q B) as [LB'|LB'].
                  ** rewrite (plain_none q n prev) in K; [discriminate| |lia]. apply B3; lia.
                  ** assert (In (q, y) []) as [] by (apply T; auto).
          * cbn. constructor; auto. rewrite in_map_iff. intros (m & Em & I). rewrite Forall_forall in SE. apply SE in I. lia.
          * cbn [length] in *. unfold span in *. lia.
          * discriminate.
      - exists B. cbn [fst snd]. split; auto. split; [exact T|]. split; auto. split; auto. split; [unfold span in *; lia|discriminate]. }
    assert (KK : fst st = [] -> snd st = []).
    { unfold st. destruct (truncate p s prev ov); [|discriminate]. destruct matches as [|[a e] matches]; cbn [next_viable]; auto.
      cbn [below] in BL. cbn [snd]. destruct (Nat.leb_spec e prev); [discriminate|lia]. }
    clearbody st. destruct st as [ov' matches']. cbn [fst snd] in *. destruct ST as (B' & LB' & T' & ND' & BL' & LF' & _).
    destruct ov' as [|o ov''].
    - cbn. intros q. rewrite KK in BL' by auto. cbn [below] in BL'. destruct (p_match p s q prev) as [y|] eqn:E; auto.
      destruct (Nat.lt_ge_cases q B') as [L|L]; [|assert (In (q, y) []) as [] by (apply T'; auto)].
      rewrite (plain_none q n prev) in E; [discriminate|auto|lia].
    - destruct (pick (o :: ov'')) as ([a x] & others & E & P & MAX); [discriminate|auto|].
      rewrite E, rev_involutive. unfold yield_match; cbn [fst snd searched].
      assert (Im : In (a, x) (o :: ov'')) by (apply (Permutation_in _ P); left; auto).
      apply T' in Im as [La M]. split; auto. pose proof (plain_range _ _ _ M) as R. split.
      + intros b y Lb Mb. assert (In (b, y) (o :: ov'')) as I by (apply T'; split; auto; lia). apply MAX in I. cbn in I. lia.
      + pose proof (Permutation_length P) as PL. cbn [length] in PL. rewrite rev_length in PL.
        assert (NR : NoDup (a :: map fst (rev others))).
        { apply (Permutation_map fst) in P. apply Permutation_sym in P. apply (Permutation_NoDup P) in ND'. exact ND'. }
        inversion NR as [|? ? N1 N2]; subst.
        apply IH with B' prev; auto; try lia.
        * rewrite rev_length. unfold span in *; cbn [length] in *; lia.
        * intros q y. split.
          -- intros I. assert (I' : In (q, y) (o :: ov'')) by (apply (Permutation_in _ P); right; auto). apply T' in I' as [I1 I2].
             repeat split; auto. intros ->. apply N1. change a with (fst (a, y)). apply in_map; auto.
          -- intros (I1 & I2 & I3). assert (I' : In (q, y) (o :: ov'')) by (apply T'; auto). apply (Permutation_in _ (Permutation_sym P)) in I'.
             destruct I' as [I'|I']; auto. congruence.
  Qed.

  Lemma reversed_searched : searched p s n (fst (reversed_re_finditer p s)).
  Proof.
    unfold reversed_re_finditer. pose proof finditer_plain as F.
    assert (Z : p_match p s 0 0 = None) by (destruct (p_match p s 0 0) eqn:E; auto; apply plain_range in E; lia).
    rewrite Z. destruct (finditer p s) as [|m0 ms] eqn:E.
    - cbn in *. intros a. apply F; lia.
    - rewrite <- E in *. pose proof (forward_ascending _ _ F) as [A _].
      pose proof (finditer_sorted p s plain_sane (2 * n + 2) false 0) as (SL & _). fold (finditer p s) in SL.
      unfold sort_matches. rewrite no_duplicate by (apply lex_nodup; auto). rewrite sort_ascending_id by auto.
      apply loop_searched with n n; auto.
      + rewrite rev_length. cbn; lia.
      + constructor.
      + intros q y. split; [intros []|]. intros (L & _ & M). apply plain_range in M. lia.
      + rewrite <- (app_nil_r (rev _)). apply forward_below with 0; auto. cbn. intros; lia.
  Qed.

  Lemma searched_gaps : forall l prev, searched p s prev l -> gaps_empty p s prev l.
  Proof.
    induction l as [|[a x] l IH]; cbn; intros prev H.
    - intros a x. rewrite H. discriminate.
    - destruct H as (H1 & H2 & H3). split; auto. intros b y L M. apply plain_range in H1. pose proof (plain_range _ _ _ M).
      assert (y <= x) by (apply (H2 b y); auto; lia). lia.
  Qed.
  Lemma searched_reverse : in_step p s -> forall l prev, searched p s prev l -> reverse_search p s prev l.
  Proof.
    intros ST. induction l as [|[a x] l IH]; cbn; intros prev H; auto. destruct H as (H1 & H2 & H3). repeat split; auto.
    intros b y M. destruct (Nat.lt_trichotomy b a) as [L|[->|L]].
    - left. eapply ST; eauto.
    - right. split; [congruence|lia].
    - exfalso. assert (x < y) by (eapply ST; eauto). assert (y <= x) by eauto. lia.
  Qed.

  (** ** finding the text of a match *)
  Lemma is_prefix_spec (w t : str) : is_prefix w t = true <-> firstn (length w) t = w.
  Proof.
    revert t; induction w as [|c w IH]; intros [|d t]; cbn; try (split; auto; discriminate).
    rewrite andb_true_iff, N.eqb_eq, IH. split; [intros [-> ->]; auto|intros H; injection H as -> ->; auto].
  Qed.
  Lemma find_spec (w t : str) i : is_prefix w (skipn i t) = true -> i <= length t -> (forall j, j < i -> is_prefix w (skipn j t) = false) -> find w t = Some i.
  Proof.
    revert i; induction t as [|c t IH]; intros [|i] P L N; cbn [find].
    - cbn [skipn] in P. rewrite P. auto.
    - cbn in L; lia.
    - cbn [skipn] in P. rewrite P. auto.
    - pose proof (N 0 ltac:(lia)) as N0. cbn [skipn] in N0. rewrite N0. rewrite (IH i); auto; [cbn in L; lia|].
      intros j Lj. apply (N (S j)); lia.
  Qed.
  Lemma rfind_none (w t : str) : (forall j, j <= length t -> is_prefix w (skipn j t) = false) -> rfind w t = None.
  Proof.
    induction t as [|c t IH]; intros N; cbn [rfind].
    - pose proof (N 0 ltac:(lia)) as N0. cbn [skipn] in N0. rewrite N0. auto.
    - rewrite IH by (intros j Lj; apply (N (S j)); cbn; lia). pose proof (N 0 ltac:(lia)) as N0. cbn [skipn] in N0. rewrite N0. auto.
  Qed.
  Lemma rfind_spec (w t : str) i : is_prefix w (skipn i t) = true -> i <= length t -> (forall j, i < j <= length t -> is_prefix w (skipn j t) = false) -> rfind w t = Some i.
  Proof.
    revert i; induction t as [|c t IH]; intros [|i] P L N; cbn [rfind].
    - cbn [skipn] in P. rewrite P. auto.
    - cbn in L; lia.
    - cbn [skipn] in P. rewrite rfind_none by (intros j Lj; apply (N (S j)); cbn; lia). rewrite P. auto.
    - rewrite (IH i); auto; [cbn in L; lia|]. intros j Lj. apply (N (S j)). cbn; lia.
  Qed.

  Lemma group0_between m : group0 s m = between s (fst m) (snd m).
  Proof. reflexivity. Qed.

  Lemma partition_forward pos a e : pos <= a -> p_match p s a n = Some e -> (forall q, pos <= q < a -> p_match p s q n = None) ->
    partition (group0 s (a, e)) (skipn pos s) = Ok (between s pos a, group0 s (a, e), skipn e s).
  Proof.
    intros L M N. pose proof (plain_range _ _ _ M) as R.
    assert (LW : length (group0 s (a, e)) = e - a) by (rewrite group0_between; cbn [fst snd]; apply between_length; lia).
    assert (F : find (group0 s (a, e)) (skipn pos s) = Some (a - pos)).
    { apply find_spec.
      - apply is_prefix_spec. rewrite LW, skipn_skipn. replace (a - pos + pos) with a by lia. reflexivity.
      - rewrite skipn_length; lia.
      - intros j Lj. destruct (is_prefix _ _) eqn:E; auto. exfalso. apply is_prefix_spec in E. rewrite LW, skipn_skipn in E.
        assert (LE : j + pos + (e - a) <= n).
        { apply (f_equal (@length _)) in E. rewrite LW, firstn_length, skipn_length in E. lia. }
        assert (Q : p_match p s (j + pos) (j + pos + (e - a)) = Some (j + pos + (e - a))).
        { apply plain_text with n; auto. unfold between. change (firstn (e - a) (skipn a s)) with (group0 s (a, e)). rewrite <- E. f_equal; lia. }
        apply (plain_monotone (j + pos) n (j + pos + (e - a))); auto; [congruence|]. apply N; lia. }
    unfold partition. destruct (group0 s (a, e)) as [|c w] eqn:G; [cbn in LW; lia|]. rewrite <- G in *. rewrite F, LW.
    rewrite skipn_skipn. replace (a - pos + (e - a) + pos) with e by lia. reflexivity.
  Qed.

  Lemma partition_loop_plain : forall count l pos, leftmost p s pos l -> partition_loop s count l (skipn pos s) = Ok (cut_at s count l pos).
  Proof.
    induction count as [|count IH]; intros l pos F; [reflexivity|]. cbn [partition_loop cut_at]. destruct l as [|[a e] l]; [reflexivity|].
    cbn [leftmost] in F. destruct F as (F1 & F2 & F3 & F4). rewrite (partition_forward pos a e) by auto. cbn [rbind].
    rewrite IH by auto. reflexivity.
  Qed.

  Lemma rpartition_back prev a x : prev <= n -> p_match p s a prev = Some x -> (forall b y, a < b -> p_match p s b prev = Some y -> y <= x) ->
    rpartition (group0 s (a, x)) (firstn prev s) = Ok (firstn a s, group0 s (a, x), between s x prev).
  Proof.
    intros L M N. pose proof (plain_range _ _ _ M) as R.
    assert (LW : length (group0 s (a, x)) = x - a) by (rewrite group0_between; cbn [fst snd]; apply between_length; lia).
    assert (LP : length (firstn prev s) = prev) by (rewrite firstn_length; lia).
    assert (F : rfind (group0 s (a, x)) (firstn prev s) = Some a).
    { apply rfind_spec.
      - apply is_prefix_spec. rewrite LW, skipn_firstn_comm, firstn_firstn. unfold group0; cbn [fst snd]. f_equal; lia.
      - rewrite LP; lia.
      - intros j Lj. rewrite LP in Lj. destruct (is_prefix _ _) eqn:E; auto. exfalso. apply is_prefix_spec in E. rewrite LW, skipn_firstn_comm, firstn_firstn in E.
        assert (LE : j + (x - a) <= prev).
        { apply (f_equal (@length _)) in E. rewrite LW, firstn_length in E. lia. }
        assert (Q : p_match p s j (j + (x - a)) = Some (j + (x - a))).
        { apply plain_text with prev; [auto|lia|]. unfold between. change (firstn (x - a) (skipn a s)) with (group0 s (a, x)). rewrite <- E. f_equal; lia. }
        destruct (p_match p s j prev) as [y|] eqn:MY; [|apply (plain_monotone j prev (j + (x - a))); auto; congruence].
        assert (y <= x) by (apply (N j); auto; lia). apply plain_stable with (e' := j + (x - a)) in MY; [|lia]. assert (y = j + (x - a)) by congruence. lia. }
    unfold rpartition. destruct (group0 s (a, x)) as [|c w] eqn:G; [cbn in LW; lia|]. rewrite <- G in *. rewrite F, LW.
    rewrite firstn_firstn, skipn_firstn_comm. replace (min a prev) with a by lia. replace (a + (x - a)) with x by lia. reflexivity.
  Qed.
  Lemma rpartition_loop_plain : forall count l prev, prev <= n -> searched p s prev l -> rpartition_loop s count l (firstn prev s) = Ok (cut_at_right s count l prev).
  Proof.
    induction count as [|count IH]; intros l prev Lp F; [reflexivity|]. cbn [rpartition_loop cut_at_right]. destruct l as [|[a e] l]; [reflexivity|].
    cbn [searched] in F. destruct F as (F1 & F2 & F3). pose proof (plain_range _ _ _ F1). rewrite (rpartition_back prev a e) by auto. cbn [rbind].
    rewrite IH by (auto; lia). reflexivity.
  Qed.

  Lemma re_partition_plain count : (0 <= count)%Z -> re_partition s p count = Ok (cut_at s (Z.to_nat count) (finditer p s) 0).
  Proof.
    intros L. unfold re_partition. destruct (Z.eqb_spec count 1) as [->|N1].
    - change (Z.to_nat 1) with 1. cbn [cut_at].
      pose proof (search_plain (S n) false 0 ltac:(lia)) as H. unfold re_search.
      assert (E : finditer p s = match search_from p s false 0 (S n) with None => [] | Some (a, e) => (a, e) :: finditer_from (2 * n + 1) p s (a =? e) e end).
      { unfold finditer. replace (2 * n + 2) with (S (2 * n + 1)) by lia. reflexivity. }
      rewrite E. destruct (search_from p s false 0 (S n)) as [[a e]|]; [|reflexivity].
      destruct H as (H1 & H2 & H3). change s with (skipn 0 s) at 2. rewrite (partition_forward 0 a e) by auto. reflexivity.
    - destruct (Z.eqb_spec count 0) as [->|N0]; [reflexivity|]. destruct (Z.ltb_spec count 0); [lia|].
      change s with (skipn 0 s) at 3. apply partition_loop_plain. apply finditer_plain.
  Qed.
  Lemma re_rpartition_plain count : (0 <= count)%Z -> re_rpartition s p count = Ok (cut_at_right s (Z.to_nat count) (fst (reversed_re_finditer p s)) n).
  Proof.
    intros L. unfold re_rpartition. pose proof reversed_searched as S. destruct (reversed_right_to_left p s plain_sane) as (E & _).
    unfold take. rewrite E. cbn [rbind]. destruct (Z.eqb_spec count 1) as [->|N1].
    - change (Z.to_nat 1) with 1. cbn [cut_at_right]. destruct (fst (reversed_re_finditer p s)) as [|[a x] l].
      + cbn. rewrite firstn_all. reflexivity.
      + cbn [searched] in S. destruct S as (S1 & S2 & _). replace (rpartition (group0 s (a, x)) s) with (rpartition (group0 s (a, x)) (firstn n s)) by (rewrite firstn_all; auto).
        rewrite rpartition_back by auto. reflexivity.
    - destruct (Z.eqb_spec count 0) as [->|N0]; [cbn; rewrite firstn_all; reflexivity|]. destruct (Z.ltb_spec count 0); [lia|].
      rewrite <- (rpartition_loop_plain (Z.to_nat count) (fst (reversed_re_finditer p s)) n) by auto. rewrite firstn_all. reflexivity.
  Qed.

  (** ** the text of the items is the whole text *)
  Lemma repeat_text count : concat (map (item_text s) (concat (repeat [NoMatch; Text []] count))) = [] /\ concat (map (item_text s) (concat (repeat [Text []; NoMatch] count))) = [].
  Proof. induction count; cbn; auto. Qed.
  Lemma between_skipn pos a : pos <= a -> between s pos a ++ skipn a s = skipn pos s.
  Proof. intros L. unfold between. rewrite <- (firstn_skipn (a - pos) (skipn pos s)) at 2. f_equal. rewrite skipn_skipn. f_equal; lia. Qed.
  Lemma firstn_between a e : a <= e -> firstn a s ++ between s a e = firstn e s.
  Proof. intros L. unfold between. rewrite <- (firstn_skipn a (firstn e s)), firstn_firstn, skipn_firstn_comm. f_equal. f_equal; lia. Qed.
  Lemma cut_at_text : forall count l pos, leftmost p s pos l -> concat (map (item_text s) (cut_at s count l pos)) = skipn pos s.
  Proof.
    induction count as [|count IH]; intros l pos F; [apply app_nil_r|]. cbn [cut_at]. destruct l as [|[a e] l].
    - cbn [map concat item_text]. rewrite (proj1 (repeat_text (S count))). apply app_nil_r.
    - cbn [leftmost] in F. destruct F as (F1 & F2 & F3 & F4). pose proof (plain_range _ _ _ F2). cbn [map concat item_text]. rewrite IH by auto.
      rewrite group0_between; cbn [fst snd]. rewrite between_skipn by lia. apply between_skipn; lia.
  Qed.
  Lemma cut_at_right_text : forall count l prev, prev <= n -> searched p s prev l -> concat (map (item_text s) (cut_at_right s count l prev)) = firstn prev s.
  Proof.
    induction count as [|count IH]; intros l prev L F; [apply app_nil_r|]. cbn [cut_at_right]. destruct l as [|[a e] l].
    - rewrite map_app, concat_app, (proj2 (repeat_text (S count))). apply app_nil_r.
    - cbn [searched] in F. destruct F as (F1 & F2 & F3). pose proof (plain_range _ _ _ F1). rewrite map_app, concat_app, IH by (auto; lia).
      cbn [map concat item_text]. rewrite group0_between, app_nil_r, app_assoc; cbn [fst snd]. rewrite firstn_between by lia. apply firstn_between; lia.
  Qed.
End Plain.
