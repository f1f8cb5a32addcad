(** re_partition and multipartition: the property C133. *)
From Verif Require Import PyBaseProof PyStrProof Regex RegexProof RefindModel RefindSpec RefindProof RefindProof2 RefindRegex RefindProps.
From Verif Require Import SplitModel SplitSpec SplitProof SplitProof2 SplitProof3 SplitProps.
From Verif Require Import RefindSpec.
From Coq Require Import Lia.

(** A pattern that finds these separators: where one begins it matches the longest that lies in the part of the text it may look at. *)
Definition finds (p : pattern) (seps : list str) (s : str) : Prop :=
  forall a e x, p_match p s a e = Some x <-> a <= e /\ exists w t, between s a (min e (length s)) = w ++ t /\ longest seps w t /\ x = a + length w.
(** re.compile('|'.join(re.escape(w) for w in sorted(separators, key=len, reverse=True))) *)
Definition separators_pattern (seps : list str) : pattern := regex_pattern (alternatives (sort longer seps)).

Theorem C133_pattern : forall seps s, seps <> [] -> Forall (fun w : str => w <> []) seps -> plain (separators_pattern seps) s /\ finds (separators_pattern seps) seps s.
Proof.
  intros seps s N V. rewrite Forall_forall in V. assert (NE : forall w : str, In w (sort longer seps) -> w <> []) by (intros w I; apply V; apply in_sort; exact I).
  assert (NN : sort longer seps <> []).
  { destruct seps as [|w seps]; [now contradiction N|]. intros E. assert (I : In w (sort longer (w :: seps))) by (apply in_sort; now left). rewrite E in I. destruct I. }
  assert (EL : forall w : str, eol_free (literal w) = true) by (induction w; cbn; auto).
  assert (NL : forall w : str, w <> [] -> nullable (literal w) = false) by (intros [|c w]; [congruence|reflexivity]).
  assert (A : eol_free (alternatives (sort longer seps)) = true /\ nullable (alternatives (sort longer seps)) = false).
  { unfold alternatives. destruct (sort longer seps) as [|w l]; [congruence|]. cbn [map].
    assert (I : forall l r, eol_free r = true -> nullable r = false -> (forall w, In w l -> w <> []) -> eol_free (fold_left Alt (map literal l) r) = true /\ nullable (fold_left Alt (map literal l) r) = false).
    { clear -EL NL. induction l as [|w l IH]; intros r E F H; cbn; auto. apply IH; cbn; [now rewrite E, EL|rewrite F, NL; auto; apply H; now left|intros; apply H; now right]. }
    apply I; [apply EL|apply NL, NE; now left|intros; apply NE; now right]. }
  split; [apply regex_pattern_plain; tauto|].
  assert (RL : forall t, regex_length (alternatives (sort longer seps)) t = match tok (sort longer seps) t with Some (_, r) => Some (length t - length r) | None => None end).
  { intros t. unfold regex_length. rewrite rmatch_tok by discriminate. reflexivity. }
  intros a e x. cbn [separators_pattern regex_pattern p_match]. destruct (Nat.leb_spec a e) as [L|L]; [|split; [discriminate|lia]]. rewrite RL.
  destruct (tok (sort longer seps) (between s a (min e (length s)))) as [[w r]|] eqn:E.
  - apply tok_longest in E as [E Lo]. split.
    + intros [= <-]. split; [exact L|]. exists w, r. repeat split; auto; [apply Lo|apply Lo|]. rewrite E, app_length. cbn. lia.
    + intros [_ (w' & t' & E' & Lo' & ->)]. rewrite E in E'. destruct (longest_fun seps w r w' t' Lo Lo' E') as [-> ->]. cbn. f_equal. rewrite E, app_length. lia.
  - cbn. split; [discriminate|]. intros [_ (w' & t' & E' & Lo' & _)]. exfalso. apply tok_none in E. apply E. apply sep_at_sort. exists w', t'. split; [apply Lo'|exact E'].
Qed.
Print Assumptions C133_pattern.

Section Literal.
  Context (p : pattern) (seps : list str) (s : str) (V : Forall (fun w : str => w <> []) seps) (F : finds p seps s).

  Lemma finds_sep a e : a <= e <= length s -> (p_match p s a e = None <-> ~ sep_at seps (between s a e) 0).
  Proof.
    intros L. split.
    - intros N S. destruct (tok (sort longer seps) (between s a e)) as [[w t]|] eqn:E.
      + apply tok_longest in E as [E Lo]. assert (p_match p s a e = Some (a + length w)); [|congruence]. apply F. split; [lia|]. exists w, t.
        replace (min e (length s)) with e by lia. auto.
      + apply tok_none in E. apply E. now apply sep_at_sort.
    - intros N. destruct (p_match p s a e) as [x|] eqn:E; auto. exfalso. apply N. apply F in E as [_ (w & t & E & [I _] & _)].
      replace (min e (length s)) with e in E by lia. exists w, t. auto.
  Qed.
  Lemma skipn_between a i e : skipn i (between s a e) = between s (a + i) e.
  Proof. unfold between. rewrite skipn_firstn_comm, skipn_skipn. f_equal; [lia|f_equal; lia]. Qed.
  Lemma between_all a : skipn a s = between s a (length s).
  Proof. unfold between. rewrite firstn_all2; auto. rewrite skipn_length. lia. Qed.
  Lemma between_app a b e : a <= b -> b <= e -> between s a e = between s a b ++ between s b e.
  Proof.
    intros L1 L2. unfold between. rewrite <- (firstn_skipn (b - a) (skipn a s)) at 1. rewrite skipn_skipn. replace (b - a + a) with b by lia.
    rewrite firstn_app, firstn_firstn. replace (min (e - a) (b - a)) with (b - a) by lia. f_equal. rewrite firstn_length, skipn_length.
    destruct (Nat.le_gt_cases b (length s)); [f_equal; lia|]. rewrite skipn_all2 by lia. now rewrite !firstn_nil.
  Qed.

  Lemma texts_none k : map (item_text s) (concat (repeat [NoMatch; Text []] k)) = repeat [] (2 * k).
  Proof. induction k as [|k IH]; auto. cbn [repeat concat map app item_text]. replace (2 * S k) with (S (S (2 * k))) by lia. cbn [repeat]. now rewrite <- IH. Qed.
  Lemma texts_none' k : map (item_text s) (concat (repeat [Text []; NoMatch] k)) = repeat [] (2 * k).
  Proof. induction k as [|k IH]; auto. cbn [repeat concat map app item_text]. replace (2 * S k) with (S (S (2 * k))) by lia. cbn [repeat]. now rewrite <- IH. Qed.

  Lemma left_cuts n : forall pos l, pos <= length s -> leftmost p s pos l ->
    exists c y pad, splits true seps (Some n) (skipn pos s) c y /\ map (item_text s) (cut_at s n l pos) = (flat_map (fun q : str * str => [fst q; snd q]) c ++ [y]) ++ repeat [] pad /\ 2 * length c + 1 + pad = 2 * n + 1.
  Proof.
    induction n as [|n IH]; intros pos l L LM.
    - exists [], (skipn pos s), 0. split; [constructor|]. split; [reflexivity|cbn; lia].
    - destruct l as [|[a e] l]; cbn [leftmost] in LM.
      + exists [], (skipn pos s), (2 * S n). split; [|split; [|cbn; lia]].
        * apply split_none. rewrite between_all. intros i S. assert (Hi : i < length (between s pos (length s))).
          { destruct S as (w & t & I & E). apply (f_equal (@length _)) in E. rewrite skipn_length, app_length in E. rewrite Forall_forall in V. apply V in I.
            destruct w; [congruence|]. cbn in E. lia. }
          rewrite between_length in Hi by lia. specialize (LM (pos + i) ltac:(lia)). apply finds_sep in LM; [|lia]. apply LM.
          rewrite <- skipn_between. destruct S as (w & t & I & E). exists w, t. auto.
        * cbn [cut_at map item_text flat_map app]. now rewrite texts_none.
      + destruct LM as (G & M & Q & LM). pose proof (proj1 (F _ _ _) M) as (Le & w & t & E & Lo & ->). replace (min (length s) (length s)) with (length s) in E by lia.
        assert (Lw : length (between s a (length s)) = length w + length t) by (rewrite E; apply app_length). rewrite between_length in Lw by lia.
        destruct (IH (a + length w) l) as (c & y & pad & S & T & P); [lia|exact LM|]. exists ((between s pos a, w) :: c), y, pad.
        assert (Et : t = skipn (a + length w) s).
        { rewrite between_all. rewrite <- skipn_between, E. rewrite skipn_app, Nat.sub_diag, skipn_all2 by lia. reflexivity. }
        assert (Es : skipn pos s = between s pos a ++ w ++ skipn (a + length w) s) by (rewrite <- Et, <- E, between_all; now rewrite <- between_app by lia).
        split; [|split].
        * rewrite Es. apply split_cut; [discriminate| |rewrite <- Et; exact Lo|exact S]. intros i Hi Sp. rewrite <- Es, between_all in Sp.
          rewrite between_length in Hi by lia. specialize (Q (pos + i) ltac:(lia)). apply finds_sep in Q; [|lia]. apply Q. rewrite <- skipn_between.
          destruct Sp as (w' & t' & I' & E'). exists w', t'. auto.
        * cbn [cut_at map item_text flat_map app fst snd]. rewrite T. do 2 f_equal. unfold group0. cbn [fst snd]. replace (a + length w - a) with (length w) by lia.
          rewrite between_all, E. rewrite firstn_app, Nat.sub_diag, firstn_all. cbn. now rewrite app_nil_r.
        * cbn. lia.
  Qed.

  Context (L : nat) (EqL : forall w, In w seps -> length w = L).
  Lemma right_cuts n : forall prev l, prev <= length s -> searched p s prev l ->
    exists c y pad, rsplits true seps (Some n) (firstn prev s) c y /\ map (item_text s) (cut_at_right s n l prev) = repeat [] pad ++ flat_map (fun q : str * str => [fst q; snd q]) c ++ [y] /\ 2 * length c + 1 + pad = 2 * n + 1.
  Proof.
    induction n as [|n IH]; intros prev l Lp SR.
    - exists [], (firstn prev s), 0. split; [constructor|]. split; [reflexivity|cbn; lia].
    - assert (B0 : firstn prev s = between s 0 prev) by (unfold between; now rewrite Nat.sub_0_r).
      destruct l as [|[a e] l]; cbn [searched] in SR.
      + exists [], (firstn prev s), (2 * S n). split; [|split; [|cbn; lia]].
        * apply rsplit_none. rewrite B0. intros i S. assert (Hi : i < length (between s 0 prev)).
          { destruct S as (w & t & I & E). apply (f_equal (@length _)) in E. rewrite skipn_length, app_length in E. rewrite Forall_forall in V. apply V in I.
            destruct w; [congruence|]. cbn in E. lia. }
          rewrite between_length in Hi by lia. specialize (SR i). apply finds_sep in SR; [|lia]. apply SR.
          replace (between s i prev) with (skipn i (between s 0 prev)) by now rewrite skipn_between. destruct S as (w & t & I & E). exists w, t. auto.
        * cbn [cut_at_right]. rewrite map_app, texts_none'. reflexivity.
      + destruct SR as (M & Q & SR). pose proof (proj1 (F _ _ _) M) as (Le & w & t & E & Lo & ->). replace (min prev (length s)) with prev in E by lia.
        assert (Lw : length (between s a prev) = length w + length t) by (rewrite E; apply app_length). rewrite between_length in Lw by lia.
        assert (W : length w = L) by (apply EqL, Lo). assert (0 < L) by (destruct Lo as [I _]; rewrite Forall_forall in V; apply V in I; destruct w; [congruence|cbn in W; lia]).
        destruct (IH a l) as (c & y & pad & S & T & P); [lia|exact SR|]. exists (c ++ [(y, w)]), (between s (a + length w) prev), pad.
        assert (Et : t = between s (a + length w) prev) by (rewrite <- skipn_between, E, skipn_app, Nat.sub_diag, skipn_all2 by lia; reflexivity).
        assert (Es : firstn prev s = firstn a s ++ w ++ between s (a + length w) prev).
        { rewrite <- Et, <- E, B0. rewrite (between_app 0 a prev) by lia. f_equal. unfold between. now rewrite Nat.sub_0_r. }
        split; [|split].
        * rewrite Es. apply (rsplit_cut true seps (Some (Datatypes.S n)) (between s (a + length w) prev) w (firstn a s) y c); [discriminate| |split; [apply Lo|]|exact S].
          -- intros i Hi (w' & t' & I' & E' & _). rewrite between_length in Hi by lia. rewrite <- Es in E'. rewrite firstn_length, firstn_firstn in E'.
             replace (min (min prev (length s) - i) prev) with (prev - i) in E' by lia.
             assert (Lt : length (firstn (prev - i) s) = length t' + L) by (rewrite E', app_length, (EqL w' I'); reflexivity). rewrite firstn_length in Lt.
             assert (NM : p_match p s (length t') prev <> None).
             { intros NM. apply finds_sep in NM; [|lia]. apply NM. exists w', (skipn (prev - i) (firstn prev s)). split; [exact I'|]. cbn [skipn].
               replace (between s (length t') prev) with (skipn (length t') (firstn prev s)) by (rewrite B0, skipn_between; reflexivity).
               rewrite <- (firstn_skipn (prev - i) (firstn prev s)) at 1. rewrite firstn_firstn. replace (min (prev - i) prev) with (prev - i) by lia. rewrite E', <- app_assoc.
               rewrite skipn_app, skipn_all, Nat.sub_diag. reflexivity. }
             destruct (p_match p s (length t') prev) as [x|] eqn:Mx; [|congruence]. pose proof (proj1 (F _ _ _) Mx) as (_ & w2 & t2 & E2 & [I2 _] & ->).
             specialize (Q (length t') _ ltac:(lia) Mx). rewrite (EqL w2 I2) in Q. lia.
          -- intros w' t' I' _. rewrite (EqL w' I'). lia.
        * cbn [cut_at_right]. rewrite map_app, T, flat_map_app, <- !app_assoc. cbn [flat_map map item_text app fst snd]. do 4 f_equal.
          unfold group0. cbn [fst snd]. replace (a + length w - a) with (length w) by lia.
          replace (firstn (length w) (skipn a s)) with (firstn (length w) (between s a prev)) by (unfold between; rewrite firstn_firstn; f_equal; lia).
          rewrite E. rewrite firstn_app, Nat.sub_diag, firstn_all. cbn. now rewrite app_nil_r.
        * rewrite app_length. cbn. lia.
  Qed.
End Literal.

(** C133.  re_partition with a pattern that matches the separators gives the strings that multipartition gives (the text of the matches, '' for None). *)
Theorem C133_re_partition : forall p seps s count, seps <> [] -> Forall (fun w : str => w <> []) seps -> plain p s -> finds p seps s ->
  match multipartition s (Some seps) count false true, re_partition s p count with
  | Ok strings, Ok items => map (item_text s) items = strings
  | Err e, Err e' => e = ValueError /\ e' = ValueError /\ (count < 0)%Z
  | _, _ => False
  end.
Proof.
  intros p seps s count N V P F. assert (V' : valid (Some seps)) by (split; auto). destruct (Z.ltb_spec count 0) as [C|C].
  - rewrite C37_negative_count by auto. destruct (C60_negative p s count C) as [-> _]. auto.
  - destruct (C37_multipartition s (Some seps) count false true V' C) as (l & y & pad & S & -> & Pl & _).
    destruct (C60_partition_partial p s count P C) as (ms & LM & -> & _).
    destruct (left_cuts p seps s V F (Z.to_nat count) 0 ms ltac:(lia) LM) as (c & y' & pad' & S' & -> & Pl'). cbn [skipn] in S'.
    destruct (proj1 (C32_split_is_unique _ _ _ _ _ _ _ _ V) S S') as [-> ->]. do 2 f_equal. lia.
Qed.
Print Assumptions C133_re_partition.
(** From the right the same if the separators have the same length, for instance for one separator. *)
Theorem C133_re_rpartition : forall p seps s count, seps <> [] -> Forall (fun w : str => w <> []) seps -> plain p s -> finds p seps s -> (forall v w, In v seps -> In w seps -> length v = length w) ->
  match multirpartition s (Some seps) count false true, re_rpartition s p count with
  | Ok strings, Ok items => map (item_text s) items = strings
  | Err e, Err e' => e = ValueError /\ e' = ValueError /\ (count < 0)%Z
  | _, _ => False
  end.
Proof.
  intros p seps s count N V P F EL. assert (V' : valid (Some seps)) by (split; auto). rewrite C37_multirpartition. cbn [negb]. destruct (Z.ltb_spec count 0) as [C|C].
  - rewrite C37_negative_count by auto. destruct (C60_negative p s count C) as [_ ->]. auto.
  - destruct (C37_multipartition s (Some seps) count true true V' C) as (l & y & pad & S & -> & Pl & _).
    destruct (C62_partition_partial p s count P C) as (ms & LM & -> & _).
    destruct seps as [|w0 seps]; [congruence|].
    destruct (right_cuts p (w0 :: seps) s V F (length w0) (fun w I => EL w w0 I (or_introl eq_refl)) (Z.to_nat count) (length s) ms ltac:(lia) LM) as (c & y' & pad' & S' & -> & Pl'). rewrite firstn_all in S'.
    destruct (proj2 (C32_split_is_unique _ _ _ _ _ _ _ _ V) S S') as [-> ->]. do 2 f_equal. lia.
Qed.
Print Assumptions C133_re_rpartition.
(** for one separator: re.escape(sep) *)
Corollary C133_one_separator : forall sep s count, sep <> [] -> (0 <= count)%Z ->
  (exists items, re_partition s (separators_pattern [sep]) count = Ok items /\ multipartition s (Some [sep]) count false true = Ok (map (item_text s) items)) /\
  (exists items, re_rpartition s (separators_pattern [sep]) count = Ok items /\ multirpartition s (Some [sep]) count false true = Ok (map (item_text s) items)).
Proof.
  intros sep s count N C. assert (V : Forall (fun w : str => w <> []) [sep]) by (repeat constructor; auto). destruct (C133_pattern [sep] s) as [P F]; [discriminate|exact V|]. split.
  - pose proof (C133_re_partition _ [sep] s count ltac:(discriminate) V P F) as H. destruct (multipartition _ _ _ _ _), (re_partition _ _ _) as [items|]; try tauto; [exists items; now subst|]. destruct H as (_ & _ & H). lia.
  - assert (EL : forall v w : str, In v [sep] -> In w [sep] -> length v = length w) by (intros v w [<-|[]] [<-|[]]; reflexivity).
    pose proof (C133_re_rpartition _ [sep] s count ltac:(discriminate) V P F EL) as H. destruct (multirpartition _ _ _ _ _), (re_rpartition _ _ _) as [items|]; try tauto; [exists items; now subst|]. destruct H as (_ & _ & H). lia.
Qed.
Print Assumptions C133_one_separator.
(** With separators of different lengths it is different from the right: reversed_re_finditer does not find the longest match that ends last (C63). *)
Theorem C133_from_the_right_refuted :
  rmap (map (item_text (u "abcdbc"))) (re_rpartition (u "abcdbc") (separators_pattern [u "abcd"; u "dbc"; u "c"]) 1) = Ok [u "abcdb"; u "c"; []] /\
  multirpartition (u "abcdbc") (Some [u "abcd"; u "dbc"; u "c"]) 1 false true = Ok [u "abc"; u "dbc"; []].
Proof. split; vm_compute; reflexivity. Qed.
Example C133_witness : re_partition (u "a--b-c") (separators_pattern [u "-"; u "--"]) 3 = Ok [Text (u "a"); Match (1, 3); Text (u "b"); Match (4, 5); Text (u "c"); NoMatch; Text []] /\
  multipartition (u "a--b-c") (Some [u "-"; u "--"]) 3 false true = Ok [u "a"; u "--"; u "b"; u "-"; u "c"; []; []].
Proof. split; vm_compute; reflexivity. Qed.
