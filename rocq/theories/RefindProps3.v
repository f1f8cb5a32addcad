(** C63, exactly: what reversed_re_finditer yields for every plain pattern. *)
From Verif Require Import PyBaseProof RefindModel RefindSpec RefindProof RefindProof2 RefindRegex RefindProps.
From Coq Require Import Lia.

(** [fwd] are the matches of a search from left to right.  Of the matches in the text before [prev],
    (a, x) is the one that ends last, and of these the longest, among those that start in the same
    match of [fwd] as the match that starts last; and so on in the text before it. *)
Fixpoint block_search (p : pattern) (s : str) (fwd : list span) (prev : nat) (l : list span) : Prop :=
  match l with
  | [] => forall a, p_match p s a prev = None
  | (a, x) :: l => p_match p s a prev = Some x /\
      (exists c d, In (c, d) fwd /\ c <= a < d /\
        forall b y, p_match p s b prev = Some y -> b < d /\ (b < c \/ y < x \/ (y = x /\ a <= b))) /\
      block_search p s fwd a l
  end.

Section Plain.
  Context (p : pattern) (s : str) (PLAIN : plain p s) (fwd : list span).
  Notation n := (length s).
  Definition window (B prev : nat) : Prop :=
    (exists d, In (B, d) fwd /\ B <= d /\ forall q, d <= q -> p_match p s q prev = None) \/ (forall q, B <= q -> p_match p s q prev = None).

  Lemma loop_blocks fuel : forall matches ov prev B prev', length ov + length matches * S n < fuel -> B <= prev -> prev <= prev' -> prev' <= n ->
    NoDup (map fst ov) -> holds p s B prev prev' ov -> below p s B matches -> incl matches fwd -> window B prev ->
    block_search p s fwd prev (fst (reversed_loop fuel p s matches ov prev)).
  Proof.
    induction fuel as [|fuel IH]; intros matches ov prev B prev' LF LB Lp Ln ND H BL INC WIN; [lia|]. cbn [reversed_loop].
    pose proof (truncate_plain p s PLAIN B prev prev' ov Lp H) as T.
    assert (FO : Forall (genuine p s) ov).
    { apply Forall_forall. intros [q y] I. apply H in I as (_ & _ & I). exists prev'; cbn; auto. }
    destruct (truncate_spec p s (plain_sane p s PLAIN) prev ov ltac:(lia) FO ND) as (_ & TN & _ & TL & _).
    set (st := match truncate p s prev ov with [] => _ | _ => _ end).
    assert (ST : exists B', B' <= B /\ (forall q y, In (q, y) (fst st) <-> B' <= q /\ p_match p s q prev = Some y) /\ NoDup (map fst (fst st)) /\ below p s B' (snd st) /\
      length (fst st) + length (snd st) * S n <= fuel /\ incl (snd st) fwd /\ window B' prev).
    { unfold st. destruct (truncate p s prev ov) as [|t ts] eqn:ET.
      - destruct matches as [|[a e] matches]; cbn [next_viable].
        + exists B. cbn [fst snd]. split; [lia|]. split; [exact T|]. split; [constructor|]. split; [exact BL|]. split; [cbn; lia|auto].
        + cbn [below] in BL. destruct BL as (B1 & B2 & B3 & B4). cbn [snd]. destruct (Nat.leb_spec e prev); [|lia].
          pose proof (plain_range p s PLAIN _ _ _ B2) as R. cbn [fst snd]. exists a. split; [lia|].
          destruct (scan_spec p s (plain_sane p s PLAIN) prev (min e prev - S a) ltac:(lia) (S a)) as (_ & SB & _ & SD & SE).
          assert (AF : forall q y, e <= q -> p_match p s q prev = Some y -> False).
          { intros q y Le K. destruct (Nat.lt_ge_cases q B) as [LB'|LB'].
            - rewrite (plain_none p s PLAIN q n prev) in K; [discriminate| |lia]. apply B3; lia.
            - assert (In (q, y) []) as [] by (apply T; auto). }
          split; [|split; [|split; [|split; [|split]]]]; auto.
          * intros q y. cbn [In]. rewrite scan_in. replace (min e prev) with e by lia. split.
            -- intros [K|[L K]]; [injection K as <- <-; split; auto; eapply plain_stable; eauto; lia|split; [lia|auto]].
            -- intros [L K]. destruct (Nat.eq_dec a q) as [<-|NE].
               ++ left. f_equal. apply plain_stable with (e' := prev) in B2; [congruence|auto|lia].
               ++ right. split; auto. destruct (Nat.lt_ge_cases q e) as [|Le]; [lia|]. exfalso. eauto.
          * cbn. constructor; auto. rewrite in_map_iff. intros (m & Em & I). rewrite Forall_forall in SE. apply SE in I. lia.
          * cbn [length] in *. unfold span in *. lia.
          * intros m I. apply INC. right. exact I.
          * left. exists e. split; [apply INC; left; reflexivity|]. split; [lia|]. intros q Le. destruct (p_match p s q prev) eqn:K; auto. exfalso. eauto.
      - exists B. cbn [fst snd]. split; auto. split; [exact T|]. split; auto. split; auto. split; [unfold span in *; lia|auto]. }
    assert (KK : fst st = [] -> snd st = []).
    { unfold st. destruct (truncate p s prev ov); [|discriminate]. destruct matches as [|[a e] matches]; cbn [next_viable]; auto.
      cbn [below] in BL. cbn [snd]. destruct (Nat.leb_spec e prev); [discriminate|lia]. }
    clearbody st. destruct st as [ov' matches']. cbn [fst snd] in *. destruct ST as (B' & LB' & T' & ND' & BL' & LF' & INC' & WIN').
    destruct ov' as [|o ov''].
    - cbn. intros q. rewrite KK in BL' by auto. cbn [below] in BL'. destruct (p_match p s q prev) as [y|] eqn:E; auto.
      destruct (Nat.lt_ge_cases q B') as [L|L]; [|assert (In (q, y) []) as [] by (apply T'; auto)].
      rewrite (plain_none p s PLAIN q n prev) in E; [discriminate|auto|lia].
    - destruct (pick (o :: ov'')) as ([a x] & others & E & P & MAX); [discriminate|auto|].
      rewrite E, rev_involutive. unfold yield_match; cbn [fst snd block_search].
      assert (Im : In (a, x) (o :: ov'')) by (apply (Permutation_in _ P); left; auto).
      apply T' in Im as [La M]. split; auto. pose proof (plain_range p s PLAIN _ _ _ M) as R. split.
      + destruct WIN' as [(d & Id & Ld & W)|W]; [|rewrite W in M; [discriminate|lia]].
        exists B', d. split; [exact Id|]. split; [split; [lia|]; destruct (Nat.lt_ge_cases a d); auto; rewrite W in M by lia; discriminate|].
        intros b y Mb. split; [destruct (Nat.lt_ge_cases b d); auto; rewrite W in Mb by lia; discriminate|].
        destruct (Nat.lt_ge_cases b B') as [Lb|Lb]; [left; exact Lb|right].
        assert (In (b, y) (o :: ov'')) as I by (apply T'; split; auto; lia). apply MAX in I. cbn in I. lia.
      + pose proof (Permutation_length P) as PL. cbn [length] in PL. rewrite rev_length in PL.
        assert (NR : NoDup (a :: map fst (rev others))).
        { apply (Permutation_map fst) in P. apply Permutation_sym in P. apply (Permutation_NoDup P) in ND'. exact ND'. }
        inversion NR as [|? ? N1 N2]; subst.
        apply IH with B' prev; auto; try lia.
        * rewrite rev_length. unfold span in *; cbn [length] in *; lia.
        * intros q y. split.
          -- intros I. assert (I' : In (q, y) (o :: ov'')) by (apply (Permutation_in _ P); right; auto). apply T' in I' as [I1 I2].
             repeat split; auto. intros ->. apply N1. change a with (fst (a, y)). apply in_map; auto.
          -- intros (I1 & I2 & I3). assert (I' : In (q, y) (o :: ov'')) by (apply T'; auto). apply (Permutation_in _ (Permutation_sym P)) in I'.
             destruct I' as [I'|I']; auto. congruence.
        * destruct WIN' as [(d & Id & Ld & W)|W]; [left; exists d; split; [exact Id|]; split; [exact Ld|]|right]; intros q Lq;
            apply (plain_none p s PLAIN q prev a); auto; lia.
  Qed.
End Plain.

Lemma leftmost_unique p s : plain p s -> forall l l' pos, leftmost p s pos l -> leftmost p s pos l' -> l = l'.
Proof.
  intros PL. induction l as [|[a e] l IH]; intros [|[a' e'] l'] pos F F'; cbn [leftmost] in *; auto.
  - destruct F' as (A & B & _). rewrite F in B by exact A. discriminate.
  - destruct F as (A & B & _). rewrite F' in B by exact A. discriminate.
  - destruct F as (A & B & C & D), F' as (A' & B' & C' & D').
    assert (a = a') as <-. { destruct (Nat.lt_trichotomy a a') as [L|[L|L]]; auto; [rewrite C' in B by lia|rewrite C in B' by lia]; discriminate. }
    rewrite B in B'. injection B' as <-. f_equal. eapply IH; eauto.
Qed.

(** For every plain pattern: with fwd the matches of a search from left to right, the matches
    yielded are given by block_search - and by nothing else. *)
Theorem C63_reverse_search_exact (p : pattern) (s : str) (fwd : list span) : plain p s -> leftmost p s 0 fwd ->
  block_search p s fwd (length s) (fst (reversed_re_finditer p s)) /\ snd (reversed_re_finditer p s) = None /\
  forall l, block_search p s fwd (length s) l -> l = fst (reversed_re_finditer p s).
Proof.
  intros PL FW. assert (E0 : fwd = finditer p s) by (eapply leftmost_unique; eauto; apply finditer_plain; exact PL). subst fwd.
  assert (BS : block_search p s (finditer p s) (length s) (fst (reversed_re_finditer p s))).
  { unfold reversed_re_finditer.
    assert (Z : p_match p s 0 0 = None) by (destruct (p_match p s 0 0) eqn:E; auto; apply (plain_range p s PL) in E; lia).
    rewrite Z. destruct (finditer p s) as [|m0 ms] eqn:E.
    - cbn in *. intros a. apply FW; lia.
    - rewrite <- E in *. pose proof (forward_ascending p s PL _ _ FW) as [A _].
      pose proof (finditer_sorted p s (plain_sane p s PL) (2 * length s + 2) false 0) as (SL & _). fold (finditer p s) in SL.
      unfold sort_matches. rewrite no_duplicate by (apply lex_nodup; auto). rewrite sort_ascending_id by auto.
      apply loop_blocks with (length s) (length s); auto.
      + rewrite rev_length. cbn; lia.
      + constructor.
      + intros q y. split; [intros []|]. intros (L & _ & M). apply (plain_range p s PL) in M. lia.
      + rewrite <- (app_nil_r (rev _)). apply forward_below with 0; auto. cbn. intros; lia.
      + intros m I. apply in_rev. exact I.
      + right. intros q Lq. destruct (p_match p s q (length s)) eqn:K; auto. apply (plain_range p s PL) in K. lia. }
  split; [exact BS|]. split; [apply (reversed_right_to_left p s (plain_sane p s PL))|].
  assert (SEP : forall c d c' d', In (c, d) (finditer p s) -> In (c', d') (finditer p s) -> c < d' -> c' < d -> c = c' /\ d = d').
  { clear BS. generalize dependent (finditer p s). intros f FW. generalize dependent 0. induction f as [|[a e] f IH]; intros pos FW; [intros ? ? ? ? []|].
    cbn [leftmost] in FW. destruct FW as (A & B & C & D).
    assert (AFT : forall f pos, leftmost p s pos f -> forall c d, In (c, d) f -> pos <= c).
    { clear - PL. induction f as [|[a e] f IH]; intros pos H c d I; [destruct I|]. cbn [leftmost] in H. destruct H as (A & B & C & D).
      destruct I as [I|I]; [injection I as <- <-; exact A|]. apply (IH _ D) in I. apply (plain_range p s PL) in B. lia. }
    intros c d c' d' [I|I] [I'|I'] L L'; [split; congruence| | |eapply IH; eauto].
    - injection I as -> ->. apply (AFT _ _ D) in I'. lia.
    - injection I' as -> ->. apply (AFT _ _ D) in I. lia. }
  revert BS. generalize (fst (reversed_re_finditer p s)). generalize (length s). clear FW.
  assert (U : forall l' l prev, block_search p s (finditer p s) prev l -> block_search p s (finditer p s) prev l' -> l' = l).
  { induction l' as [|[a x] l' IH]; intros [|[a' x'] l] prev H H'; cbn [block_search] in *; auto.
    - destruct H as (B & _). rewrite H' in B. discriminate.
    - destruct H' as (B & _). rewrite H in B. discriminate.
    - destruct H as (M & (c & d & I & L & W) & H), H' as (M' & (c' & d' & I' & L' & W') & H').
      destruct (W _ _ M') as [W1 W2], (W' _ _ M) as [W1' W2'].
      destruct (SEP c d c' d' I I') as [<- <-]; [lia|lia|].
      assert (a' = a) by lia. subst a'. rewrite M in M'. injection M' as <-. f_equal. eapply IH; eauto. }
  intros pv g BS l Hl. eapply U; eauto.
Qed.
Print Assumptions C63_reverse_search_exact.
(** for (ab|cd|bcde) in 'abcde': 'cd' and not 'bcde', which starts in the match 'ab' *)
Example C63_exact_nonvacuous : let p := words_pattern [u "ab"; u "cd"; u "bcde"] in
  plain p (u "abcde") /\ leftmost p (u "abcde") 0 [(0, 2); (2, 4)] /\ fst (reversed_re_finditer p (u "abcde")) = [(2, 4); (0, 2)].
Proof.
  cbv zeta. split; [apply words_pattern_plain; repeat constructor; discriminate|]. split; [|reflexivity].
  exact (finditer_plain (words_pattern [u "ab"; u "cd"; u "bcde"]) (u "abcde") ltac:(apply words_pattern_plain; repeat constructor; discriminate)).
Qed.
