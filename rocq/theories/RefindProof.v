(** Proofs about reversed_re_finditer: every pattern. *)
From Verif Require Import PyBaseProof RefindModel RefindSpec.
From Coq Require Import Lia.

Definition genuine (p : pattern) (s : str) (m : span) : Prop :=
  exists e, e <= length s /\ (p_match p s (fst m) e = Some (snd m) \/ p_match_nonempty p s (fst m) e = Some (snd m)).
Definition lex (a b : span) : Prop := fst a < fst b \/ (fst a = fst b /\ snd a < snd b).

Lemma tuple_total : strict_total tuple_ltb.
Proof.
  unfold strict_total, strict_weak, tuple_ltb; repeat split.
  - intros [a b]; cbn [fst snd]. rewrite !Nat.ltb_irrefl, andb_false_r. auto.
  - intros [a b] [c d]; cbn [fst snd]. destruct (Nat.ltb_spec b d), (Nat.ltb_spec d b), (Nat.eqb_spec b d), (Nat.eqb_spec d b), (Nat.ltb_spec a c), (Nat.ltb_spec c a); cbn; auto; lia.
  - intros [a b] [c d] [e f]; cbn [fst snd]. destruct (Nat.ltb_spec d b), (Nat.ltb_spec f d), (Nat.ltb_spec f b), (Nat.eqb_spec f b), (Nat.eqb_spec d b), (Nat.eqb_spec f d), (Nat.ltb_spec a c), (Nat.ltb_spec c e), (Nat.ltb_spec a e); cbn; auto; lia.
  - intros [a b] [c d]; cbn [fst snd]. destruct (Nat.ltb_spec b d), (Nat.ltb_spec d b), (Nat.eqb_spec b d), (Nat.eqb_spec d b), (Nat.ltb_spec a c), (Nat.ltb_spec c a); cbn; intros; try discriminate; try lia. f_equal; lia.
Qed.

Lemma tuple_ltb_false a b : tuple_ltb a b = false -> snd b < snd a \/ (snd b = snd a /\ fst a <= fst b).
Proof.
  unfold tuple_ltb. destruct (Nat.ltb_spec (snd a) (snd b)), (Nat.eqb_spec (snd a) (snd b)), (Nat.ltb_spec (fst b) (fst a)); cbn; intros; try discriminate; lia.
Qed.

Lemma no_duplicate l : NoDup l -> has_duplicate l = false.
Proof.
  induction l as [|m l IH]; cbn; auto. intros H; inversion H as [|? ? N D]; subst.
  rewrite (IH D), orb_false_r. match goal with |- ?x = false => destruct x eqn:E; auto end. exfalso. apply N.
  apply existsb_exists in E as ([c d] & I & E). destruct m as [a b]; cbn in E. apply andb_true_iff in E as [E1 E2].
  apply Nat.eqb_eq in E1, E2; subst; auto.
Qed.

Lemma NoDup_starts (l : list span) : NoDup (map fst l) -> NoDup l.
Proof. induction l as [|m l IH]; cbn; intros H; constructor; inversion H; subst; auto. intros I; apply H2. apply in_map; auto. Qed.

Lemma search_spec p s count : forall advance pos a e, search_from p s advance pos count = Some (a, e) ->
  pos <= a /\ a < pos + count /\ genuine p s (a, e) /\ (advance = true -> a = pos -> p_match_nonempty p s a (length s) = Some e).
Proof.
  induction count as [|count IH]; cbn [search_from]; intros advance pos a e H; [discriminate|].
  destruct (if advance then _ else _) eqn:E.
  - injection H as <- <-. repeat split; try lia.
    + exists (length s). cbn. split; auto. destruct advance; auto.
    + intros ->; auto.
  - apply IH in H as (H1 & H2 & H3 & _). repeat split; auto; try lia.
Qed.

Section Sane.
  Context (p : pattern) (s : str) (SANE : sane p s).
  Notation n := (length s).

  Lemma genuine_range m : genuine p s m -> fst m <= snd m <= n.
  Proof. intros (e & L & [H|H]); [apply (proj1 SANE) in H|apply (proj2 SANE) in H]; lia. Qed.

  Lemma finditer_sorted fuel : forall advance pos,
    StronglySorted lex (finditer_from fuel p s advance pos) /\ Forall (genuine p s) (finditer_from fuel p s advance pos) /\
    Forall (fun m => pos <= fst m /\ (advance = true -> fst m = pos -> pos < snd m)) (finditer_from fuel p s advance pos).
  Proof.
    induction fuel as [|fuel IH]; cbn [finditer_from]; intros advance pos; [repeat constructor|].
    destruct (search_from _ _ _ _ _) as [[a e]|] eqn:E; [|repeat constructor].
    apply search_spec in E as (H1 & H2 & G & A). specialize (IH (a =? e) e) as (S & F & R).
    pose proof (genuine_range _ G) as [GR _]; cbn in GR.
    repeat split.
    - constructor; auto. rewrite Forall_forall in *. intros [c d] I. apply R in I as [I1 I2]. cbn in *. unfold lex; cbn.
      destruct (Nat.eqb_spec a e); [|lia]. destruct (Nat.eq_dec c e); [|lia]. assert (e < d) by auto. lia.
    - constructor; auto.
    - constructor; cbn; [split; auto; intros A1 A2; specialize (A A1 A2); apply (proj2 SANE) in A; lia|].
      eapply Forall_impl; [|exact R]. cbn. intros [c d] [I1 I2]; cbn in *. split; [lia|]. intros Ad Ec. subst c.
      assert (a = pos) by lia. assert (e = pos) by lia. subst a e. apply I2; auto. apply Nat.eqb_refl.
  Qed.

  Lemma add_zeroes_spec : forall matches zeroes, StronglySorted lex matches -> Forall (genuine p s) matches ->
    StronglySorted lex (add_zeroes p s zeroes matches) /\ Forall (genuine p s) (add_zeroes p s zeroes matches) /\
    Forall (fun m => In m matches \/ (~ In (fst m) zeroes /\ exists e, In (fst m, e) matches)) (add_zeroes p s zeroes matches).
  Proof.
    induction matches as [|[a e] matches IH]; cbn [add_zeroes]; intros zeroes SS F; [repeat constructor|].
    inversion SS as [|? ? SS' F']; subst. inversion F as [|? ? G F'']; subst.
    pose proof (genuine_range _ G) as [GR GR']; cbn in GR, GR'.
    assert (LEX : forall zs m, (In a zs) -> In m matches \/ (~ In (fst m) zs /\ exists e, In (fst m, e) matches) -> lex (a, e) m).
    { intros zs m Z [I|(N & e' & I)]; rewrite Forall_forall in F'.
      - auto.
      - apply F' in I. unfold lex in *; cbn in *. left. destruct (Nat.eq_dec a (fst m)); [subst; tauto|lia]. }
    destruct (existsb (Nat.eqb a) zeroes) eqn:Z.
    - assert (Za : In a zeroes) by (apply existsb_exists in Z as (z & I & Ez); apply Nat.eqb_eq in Ez; subst; auto).
      destruct (IH zeroes SS' F'') as (A & B & C). repeat split.
      + constructor; auto. rewrite Forall_forall in *. intros m I. apply (LEX zeroes); auto.
      + constructor; auto.
      + constructor; [left; left; auto|]. eapply Forall_impl; [|exact C]. intros m [I|(N & e' & I)]; [left; right; auto|right; split; eauto; exists e'; right; auto].
    - assert (Za : ~ In a zeroes).
      { intros I. assert (existsb (Nat.eqb a) zeroes = true) by (apply existsb_exists; exists a; split; auto; apply Nat.eqb_refl). congruence. }
      destruct (IH (a :: zeroes) SS' F'') as (A & B & C).
      assert (C' : Forall (fun m => In m ((a, e) :: matches) \/ (~ In (fst m) zeroes /\ exists e0, In (fst m, e0) ((a, e) :: matches))) (add_zeroes p s (a :: zeroes) matches)).
      { eapply Forall_impl; [|exact C]. intros m [I|(N & e' & I)]; [left; right; auto|right; split; [intros I'; apply N; right; auto|exists e'; right; auto]]. }
      assert (T : StronglySorted lex ((a, e) :: add_zeroes p s (a :: zeroes) matches)).
      { constructor; auto. rewrite Forall_forall in *. intros m I. apply (LEX (a :: zeroes)); auto. left; auto. }
      assert (S1 : StronglySorted lex ((a, e) :: add_zeroes p s (a :: zeroes) matches) /\ Forall (genuine p s) ((a, e) :: add_zeroes p s (a :: zeroes) matches) /\
        Forall (fun m => In m ((a, e) :: matches) \/ (~ In (fst m) zeroes /\ exists e0, In (fst m, e0) ((a, e) :: matches))) ((a, e) :: add_zeroes p s (a :: zeroes) matches)).
      { split; [exact T|]. split; constructor; auto. left; left; auto. }
      destruct (Nat.eqb_spec a e) as [->|NE]; [exact S1|].
      destruct (p_match p s a a) as [x|] eqn:M; [|exact S1].
      destruct S1 as (S1 & S2 & S3). repeat split.
      + constructor; auto. constructor; [right; cbn; lia|]. inversion S1 as [|? ? _ LX]; subst.
        eapply Forall_impl; [|exact LX]. unfold lex; cbn. intros; lia.
      + constructor; auto. exists a. cbn. split; [lia|]. left. pose proof (proj1 SANE _ _ _ M). assert (x = a) as -> by lia. auto.
      + constructor; auto. right. cbn. split; auto. exists e; left; auto.
  Qed.

  Lemma lex_nodup l : StronglySorted lex l -> NoDup l.
  Proof.
    induction 1 as [|m l S IH F]; constructor; auto. intros I. rewrite Forall_forall in F. apply F in I. unfold lex in I; lia.
  Qed.

  Lemma truncate_spec prev l : prev <= n -> Forall (genuine p s) l -> NoDup (map fst l) ->
    Forall (genuine p s) (truncate p s prev l) /\ NoDup (map fst (truncate p s prev l)) /\ Forall (fun m => snd m <= prev) (truncate p s prev l) /\
    length (truncate p s prev l) <= length l /\ incl (map fst (truncate p s prev l)) (map fst l).
  Proof.
    intros Lp. induction l as [|[a e] l IH]; cbn [truncate]; intros F N.
    - repeat split; auto using incl_refl; constructor.
    - inversion F as [|? ? G F']; subst. cbn in N. inversion N as [|? ? N1 N2]; subst. destruct (IH F' N2) as (A & B & C & D & I).
      assert (K : forall x, genuine p s (a, x) -> x <= prev ->
        Forall (genuine p s) ((a, x) :: truncate p s prev l) /\ NoDup (map fst ((a, x) :: truncate p s prev l)) /\ Forall (fun m => snd m <= prev) ((a, x) :: truncate p s prev l) /\
        length ((a, x) :: truncate p s prev l) <= length ((a, e) :: l) /\ incl (map fst ((a, x) :: truncate p s prev l)) (map fst ((a, e) :: l))).
      { intros x Gx Lx. split; [constructor; auto|]. split; [cbn; constructor; auto|]. split; [constructor; auto|]. split; [apply le_n_S; exact D|].
        cbn. intros z [->|Z]; [left; auto|right; apply I; auto]. }
      assert (K' : Forall (genuine p s) (truncate p s prev l) /\ NoDup (map fst (truncate p s prev l)) /\ Forall (fun m => snd m <= prev) (truncate p s prev l) /\
        length (truncate p s prev l) <= length ((a, e) :: l) /\ incl (map fst (truncate p s prev l)) (map fst ((a, e) :: l))).
      { do 3 (split; [auto|]). split; [apply le_S; exact D|]. cbn. intros z Z; right; apply I; auto. }
      destruct (prev <? a); [exact K'|]. destruct (Nat.leb_spec e prev); [apply K; auto|].
      destruct (p_match p s a prev) as [x|] eqn:M; [|exact K'].
      pose proof (proj1 SANE _ _ _ M). apply K; [|lia]. exists prev; cbn; auto.
  Qed.

  Lemma scan_spec prev count : prev <= n -> forall pos,
    Forall (genuine p s) (scan p s prev pos count) /\ NoDup (map fst (scan p s prev pos count)) /\ Forall (fun m => snd m <= prev) (scan p s prev pos count) /\
    length (scan p s prev pos count) <= count /\ Forall (fun m => pos <= fst m) (scan p s prev pos count).
  Proof.
    intros Lp. induction count as [|count IH]; cbn [scan]; intros pos; [repeat split; auto; constructor|].
    destruct (IH (S pos)) as (A & B & C & D & E).
    assert (E' : Forall (fun m : span => pos <= fst m) (scan p s prev (S pos) count)) by (eapply Forall_impl; [|exact E]; cbn; intros; lia).
    destruct (p_match p s pos prev) as [x|] eqn:M; [|repeat split; auto; lia].
    pose proof (proj1 SANE _ _ _ M). repeat split.
    - constructor; auto. exists prev; cbn; auto.
    - cbn; constructor; auto. rewrite in_map_iff. intros (m & Em & I). rewrite Forall_forall in E. apply E in I. lia.
    - constructor; auto; cbn; lia.
    - cbn; lia.
    - constructor; auto.
  Qed.

  Lemma next_viable_spec prev matches : forall found rest, next_viable prev matches = (found, rest) -> Forall (genuine p s) matches ->
    Forall (genuine p s) rest /\ match found with
    | None => rest = []
    | Some m => genuine p s m /\ snd m <= prev /\ length rest < length matches
    end.
  Proof.
    induction matches as [|t matches IH]; cbn [next_viable]; intros found rest H F.
    - injection H as <- <-. auto.
    - inversion F; subst. destruct (Nat.leb_spec (snd t) prev).
      + injection H as <- <-. cbn; auto.
      + apply IH in H as [A B]; auto. split; auto. destruct found; auto. cbn. intuition lia.
  Qed.

  (** the match chosen in one iteration *)
  Lemma pick l : l <> [] -> NoDup (map fst l) -> exists m others, sort_matches l = Ok (rev (m :: others)) /\ Permutation (m :: rev others) l /\
    (forall b, In b l -> snd b < snd m \/ (snd b = snd m /\ fst m <= fst b)).
  Proof.
    intros NE ND. unfold sort_matches. rewrite no_duplicate by (apply NoDup_starts; auto).
    pose proof (sort_perm tuple_ltb l) as P. pose proof (sort_sorted tuple_ltb (proj1 tuple_total) l) as S.
    destruct (rev (sort tuple_ltb l)) as [|m others] eqn:R.
    - exfalso. apply (f_equal (@rev span)) in R. rewrite rev_involutive in R. cbn in R. rewrite R in P. apply Permutation_nil in P. auto.
    - exists m, others. assert (R' : sort tuple_ltb l = rev (m :: others)) by (rewrite <- R, rev_involutive; auto). rewrite R' in *. split; auto.
      assert (PM : Permutation (m :: rev others) l).
      { transitivity (rev (m :: others)); auto. cbn [rev]. apply Permutation_cons_append. }
      split; auto. intros b I. apply (Permutation_in _ (Permutation_sym PM)) in I. destruct I as [<-|I]; [lia|].
      apply tuple_ltb_false. unfold ascending in S. cbn [rev] in S. clear - S I. revert S I. generalize (rev others) as o.
      induction o as [|c o IH]; cbn; intros S I; [tauto|]. inversion S as [|? ? S' F]; subst. destruct I as [->|I]; [|auto].
      rewrite Forall_forall in F. apply F. apply in_or_app; right; left; auto.
  Qed.

  (** The loop terminates without an exception, and each match is to the left of the one before. *)
  Lemma loop_right_to_left fuel : forall matches ov prev, length ov + length matches * S n < fuel -> prev <= n ->
    Forall (genuine p s) matches -> Forall (genuine p s) ov -> NoDup (map fst ov) ->
    snd (reversed_loop fuel p s matches ov prev) = None /\
    Forall (genuine p s) (fst (reversed_loop fuel p s matches ov prev)) /\
    right_to_left (fst (reversed_loop fuel p s matches ov prev)) /\
    Forall (fun m => snd m <= prev) (fst (reversed_loop fuel p s matches ov prev)).
  Proof.
    induction fuel as [|fuel IH]; intros matches ov prev LF Lp FM FO ND; [lia|]. cbn [reversed_loop].
    destruct (truncate_spec prev ov Lp FO ND) as (A & B & C & D & _).
    set (st := match truncate p s prev ov with [] => _ | _ => _ end).
    assert (ST : (Forall (genuine p s) (fst st) /\ NoDup (map fst (fst st)) /\ Forall (fun m => snd m <= prev) (fst st) /\ Forall (genuine p s) (snd st)) /\
                 length (fst st) + length (snd st) * S n <= fuel).
    { unfold st. destruct (truncate p s prev ov) as [|t ts] eqn:ET.
      - destruct (next_viable prev matches) as [[[a e]|] rest] eqn:NV; apply next_viable_spec in NV as [NV1 NV2]; auto; cbn [fst snd].
        + destruct NV2 as (G & Le & LT). pose proof (genuine_range _ G) as [GR _]; cbn in GR, Le.
          destruct (scan_spec prev (min e prev - S a) Lp (S a)) as (SA & SB & SC & SD & SE).
          repeat split; auto.
          * cbn; constructor; auto. rewrite in_map_iff. intros (m & Em & I). rewrite Forall_forall in SE. apply SE in I. lia.
          * cbn [length]. apply Nat.lt_le_incl in LT as LT'. 
            pose proof (Nat.mul_le_mono_r _ _ (S n) LT) as MM. cbn [Nat.mul] in MM. unfold span in *. lia.
        + subst rest. repeat split; auto; try constructor. cbn; lia.
      - cbn [fst snd]. repeat split; auto. unfold span in *; cbn [length] in *. lia. }
    clearbody st. destruct st as [ov' matches']. cbn [fst snd] in ST. destruct ST as ((A' & B' & C' & D') & LF').
    destruct ov' as [|o ov'']; [cbn; repeat split; auto; constructor|].
    destruct (pick (o :: ov'')) as (m & others & E & P & _); [discriminate|auto|].
    rewrite E, rev_involutive. unfold yield_match; cbn [fst snd].
    assert (Im : In m (o :: ov'')) by (apply (Permutation_in _ P); left; auto).
    assert (Gm : genuine p s m) by (rewrite Forall_forall in A'; auto).
    assert (Lm : snd m <= prev) by (rewrite Forall_forall in C'; auto).
    pose proof (genuine_range _ Gm).
    assert (FR : Forall (genuine p s) (rev others)).
    { rewrite Forall_forall in *. intros z I. apply A'. apply (Permutation_in _ P). right; auto. }
    assert (NR : NoDup (map fst (rev others))).
    { apply (Permutation_map fst) in P. apply Permutation_sym in P. apply (Permutation_NoDup P) in B'. cbn in B'. inversion B'; auto. }
    pose proof (Permutation_length P) as PL. cbn [length] in PL.
    destruct (IH matches' (rev others) (fst m)) as (I1 & I2 & I3 & I4); auto; [unfold span in *; cbn [length] in *; lia|lia|].
    repeat split; auto.
    - constructor; auto.
    - constructor; auto. eapply Forall_impl; [|exact I4]. cbn; intros; lia.
  Qed.

  Lemma reversed_right_to_left :
    snd (reversed_re_finditer p s) = None /\ Forall (genuine p s) (fst (reversed_re_finditer p s)) /\ right_to_left (fst (reversed_re_finditer p s)).
  Proof.
    unfold reversed_re_finditer. pose proof (finditer_sorted (2 * n + 2) false 0) as (A & B & _). fold (finditer p s) in A, B.
    destruct (finditer p s) as [|m0 ms] eqn:E; [repeat split; constructor|]. rewrite <- E in *.
    set (matches := match p_match p s 0 0 with Some _ => _ | None => _ end).
    assert (H : StronglySorted lex matches /\ Forall (genuine p s) matches).
    { unfold matches. destruct (p_match p s 0 0); [|auto]. destruct (add_zeroes_spec (finditer p s) [] A B) as (X & Y & _); auto. }
    clearbody matches. destruct H as [H1 H2]. unfold sort_matches. rewrite no_duplicate by (apply lex_nodup; auto).
    pose proof (sort_perm tuple_ltb matches) as P.
    destruct (loop_right_to_left (S (length matches * S n)) (rev (sort tuple_ltb matches)) [] n) as (I1 & I2 & I3 & _); auto.
    - rewrite rev_length, (Permutation_length P). cbn; lia.
    - rewrite Forall_forall in *. intros z I. rewrite <- in_rev in I. apply H2. apply (Permutation_in _ P); auto.
    - constructor.
  Qed.
End Sane.
