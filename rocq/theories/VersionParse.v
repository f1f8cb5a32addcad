(** The matcher on the version pattern: exactly the PEP 440 grammar, and its captures. *)
From Verif Require Import VersionModel VersionSpec PyStrProof RegexProof.

Lemma alnum_not_sep c : is_alnum c = true -> is_sep c = false.
Proof.
  unfold is_alnum, is_sep, is_digit, between. intros H.
  repeat (apply orb_true_iff in H; destruct H as [H|H]);
  try (apply andb_true_iff in H; destruct H as [H1 H2]; apply N.leb_le in H1, H2);
  try (apply N.eqb_eq in H);
  repeat (apply orb_false_iff; split); apply N.eqb_neq; lia.
Qed.
Lemma digit_not_dot c : is_digit c = true -> (c =? 46)%N = false.
Proof. unfold is_digit, between. intros H. apply andb_true_iff in H. destruct H as [H1 H2]. apply N.leb_le in H1, H2. apply N.eqb_neq. lia. Qed.

(** one or more blocks of p-characters separated by single q-characters *)
Section Blocks.
  Context (p q : chr -> bool) (pq : forall c, p c = true -> q c = false).
  Definition block (x : str) : Prop := x <> [] /\ all_of p x.
  Lemma split1_block x r : all_of p x -> split1 q (x ++ r) = match split1 q r with y :: t => (x ++ y) :: t | [] => [x] end.
  Proof.
    unfold all_of. induction x as [|c x IH]; intros H; cbn [app].
    - destruct (split1 q r) eqn:E; auto. exfalso. exact (split1_nonnil q r E).
    - cbn in H. apply andb_true_iff in H. destruct H as [H1 H2]. cbn. rewrite (pq c H1), (IH H2).
      destruct (split1 q r); auto.
  Qed.
  Lemma rel_blocks_star s g s' g' : rel (Star (Seq (Chr q) (Plus (Chr p)))) s g s' g' ->
    exists t, s = t ++ s' /\ g' = g /\ (t = [] \/ exists c t', q c = true /\ t = c :: t' /\ Forall block (split1 q t')).
  Proof.
    intros H. remember (Star (Seq (Chr q) (Plus (Chr p)))) as r eqn:E. induction H; try discriminate.
    - exists []. auto.
    - injection E as ->. apply rel_seq in H. destruct H as (sa & ga & Ha & Hb). apply rel_chr in Ha. destruct Ha as (c & -> & Hc & ->).
      apply rel_plus_class in Hb. destruct Hb as (ds & NE & -> & D & ->).
      destruct (IHrel2 eq_refl) as (t & -> & -> & T). exists (c :: ds ++ t). cbn. rewrite <- app_assoc. split; auto. split; auto.
      right. exists c, (ds ++ t). split; auto. split; auto. rewrite split1_block by auto.
      destruct T as [->|(d & t' & Hd & -> & F)].
      + cbn. rewrite app_nil_r. repeat constructor; auto.
      + cbn. rewrite Hd, app_nil_r. constructor; auto. split; auto.
  Qed.
  Lemma rel_blocks s g s' g' : rel (Seq (Plus (Chr p)) (Star (Seq (Chr q) (Plus (Chr p))))) s g s' g' ->
    exists t, s = t ++ s' /\ g' = g /\ Forall block (split1 q t).
  Proof.
    intros H. apply rel_seq in H. destruct H as (s1 & g1 & Ha & Hb).
    apply rel_plus_class in Ha. destruct Ha as (ds & NE & -> & D & ->).
    apply rel_blocks_star in Hb. destruct Hb as (t & -> & -> & T). exists (ds ++ t). rewrite <- app_assoc. split; auto. split; auto.
    rewrite split1_block by auto. destruct T as [->|(c & t' & Hd & -> & F)].
    - cbn. rewrite app_nil_r. repeat constructor; auto.
    - cbn. rewrite Hd, app_nil_r. constructor; auto. split; auto.
  Qed.
  Lemma rel_star_intro ds : forall s g, all_of p ds -> rel (Star (Chr p)) (ds ++ s) g s g.
  Proof.
    unfold all_of. induction ds as [|c ds IH]; intros s g H; cbn; [constructor|].
    cbn in H. apply andb_true_iff in H. destruct H as [H1 H2].
    eapply RelStar1; [constructor; eauto|cbn; lia|auto].
  Qed.
  Lemma rel_plus_intro ds s g : block ds -> rel (Plus (Chr p)) (ds ++ s) g s g.
  Proof.
    intros [NE H]. destruct ds as [|c ds]; [congruence|]. unfold all_of in H. cbn in H. apply andb_true_iff in H. destruct H as [H1 H2].
    econstructor; [constructor; eauto|]. now apply rel_star_intro.
  Qed.
  Lemma blocks_cons t : exists x, Forall block (split1 q t) ->
     (t = x /\ block x) \/ exists c t', q c = true /\ t = x ++ c :: t' /\ block x /\ Forall block (split1 q t') /\ length t' < length t.
  Proof.
    exists (hd [] (split1 q t)).
    induction t as [|c t IH]; cbn.
    - intros F. inversion F; subst. left. auto.
    - destruct (q c) eqn:E.
      + intros F. inversion F as [|? ? [N _]]; subst. congruence.
      + pose proof (split1_nonnil q t) as NN. destruct (split1 q t) as [|y r] eqn:S; [congruence|]. intros F.
        inversion F as [|? ? [N A] F']; subst. cbn [hd] in *. unfold all_of in A. cbn in A. apply andb_true_iff in A. destruct A as [A1 A2].
        destruct t as [|d t].
        { cbn in S. injection S as <- <-. left. split; auto. split; auto. unfold all_of. cbn. now rewrite A1. }
        destruct (q d) eqn:Qd.
        { cbn in S. rewrite Qd in S. injection S as <- <-. right. exists d, t. cbn. split; auto. split; auto. split; [|split; [auto|lia]].
          split; auto. unfold all_of. cbn. now rewrite A1. }
        assert (NE : y <> []).
        { cbn in S. rewrite Qd in S. pose proof (split1_nonnil q t). destruct (split1 q t); congruence. }
        destruct IH as [[T B]|(e & t' & He & T & B & F2 & L)].
        { constructor; auto. split; auto. }
        * left. cbn [hd] in T. rewrite T. split; auto. split; auto. unfold all_of. cbn. now rewrite A1.
        * right. exists e, t'. cbn [hd] in T. rewrite T. cbn. split; auto. split; auto. split; [|split; auto].
          -- split; auto. unfold all_of. cbn. now rewrite A1.
          -- rewrite T in L. lia.
  Qed.
  Lemma rel_blocks_intro t : forall s g, Forall block (split1 q t) ->
    rel (Seq (Plus (Chr p)) (Star (Seq (Chr q) (Plus (Chr p))))) (t ++ s) g s g.
  Proof.
    assert (G : forall n t s g, length t < n -> Forall block (split1 q t) ->
      exists x r, t = x ++ r /\ block x /\ rel (Star (Seq (Chr q) (Plus (Chr p)))) (r ++ s) g s g).
    { induction n as [|n IH]; intros t0 s g L F; [lia|].
      destruct (blocks_cons t0) as (x & C). destruct (C F) as [[T B]|(c & t' & Hc & T & B & F' & L')].
      - exists x, []. rewrite app_nil_r. split; auto. split; auto. constructor.
      - destruct (IH t' s g) as (y & r & T' & By & Ry); [lia|auto|].
        exists x, (c :: t'). split; auto. split; auto. cbn [app]. eapply RelStar1.
        + econstructor; [constructor; eauto|]. rewrite T', <- app_assoc. apply rel_plus_intro. exact By.
        + cbn. rewrite T', <- app_assoc, !app_length. lia.
        + exact Ry. }
    intros s g F. destruct (G (S (length t)) t s g) as (x & r & T & B & Rr); auto.
    rewrite T, <- app_assoc. econstructor; [apply rel_plus_intro; auto|auto].
  Qed.
End Blocks.

Lemma rel_fold_alt rs : forall r s g s' g', rel (fold_left Alt rs r) s g s' g' <-> exists a, In a (r :: rs) /\ rel a s g s' g'.
Proof.
  induction rs as [|b rs IH]; intros r s g s' g'; cbn [fold_left].
  - split; [intros H; exists r; cbn; auto|]. intros (a & [<-|[]] & H). exact H.
  - rewrite IH. split.
    + intros (a & [<-|I] & H).
      * apply rel_alt in H. destruct H as [H|H]; eexists; (split; [|exact H]); cbn; auto.
      * exists a. cbn. auto.
    + intros (a & [<-|[<-|I]] & H).
      * exists (Alt r b). split; [cbn; auto|]. now apply RelAltL.
      * exists (Alt r b). split; [cbn; auto|]. now apply RelAltR.
      * exists a. cbn. auto.
Qed.
Lemma rel_lit_intro w : forall w' s g, Forall2 (fun c d => ci c d = true) w w' -> rel (lit w) (w' ++ s) g s g.
Proof.
  induction w as [|c w IH]; intros w' s g F; inversion F; subst; cbn.
  - constructor. - econstructor; [constructor; eauto|]. apply IH. auto.
Qed.
Lemma rel_alts l s g s' g' : rel (alts l) s g s' g' <-> exists x, s = x ++ s' /\ word l x /\ g' = g.
Proof.
  unfold alts. destruct l as [|w l]; cbn [map].
  - split; [intros H; apply rel_chr in H; destruct H as (c & _ & H & _); discriminate|].
    intros (x & _ & (w & [] & _) & _).
  - rewrite rel_fold_alt. split.
    + intros (a & I & H). change (lit w :: map lit l) with (map lit (w :: l)) in I. apply in_map_iff in I.
      destruct I as (v & <- & I). apply rel_lit in H. destruct H as (x & -> & F & ->). exists x. split; auto. split; auto. exists v. auto.
    + intros (x & -> & (v & I & F) & ->). exists (lit v). split; [exact (in_map lit (w :: l) v I)|]. now apply rel_lit_intro.
Qed.
Lemma rel_sep s g s' g' : rel Sep s g s' g' <-> exists x, s = x ++ s' /\ sep01 x /\ g' = g.
Proof.
  unfold Sep, sep01. split.
  - intros H. apply rel_opt in H. destruct H as [H|[-> ->]].
    + apply rel_chr in H. destruct H as (c & -> & Hc & ->). exists [c]. split; auto. split; eauto.
    + exists []. auto.
  - intros (x & -> & [->|(c & Hc & ->)] & ->).
    + apply RelAltR. constructor. + apply RelAltL. now constructor.
Qed.
Definition cap (i : nat) (o : option str) (g : groups) : groups := match o with None => g | Some d => (i, d) :: g end.
Lemma rel_grp_intro i a p s g g1 : rel a (p ++ s) g s g1 -> rel (Grp i a) (p ++ s) g s ((i, p) :: g1).
Proof.
  intros H. pose proof (RelGrp i a _ _ _ _ H) as Q. rewrite app_length in Q.
  replace (length p + length s - length s) with (length p) in Q by lia.
  now rewrite firstn_app, Nat.sub_diag, firstn_all, app_nil_r in Q.
Qed.
Lemma rel_num i s g s' g' : rel (Opt (Grp i Digits)) s g s' g' <-> exists o x, s = x ++ s' /\ num01 o x /\ g' = cap i o g.
Proof.
  split.
  - intros H. apply rel_opt in H. destruct H as [H|[-> ->]].
    + apply rel_grp in H. destruct H as (p & g1 & -> & H & ->). apply rel_plus_class in H. destruct H as (ds & NE & Q & D & ->).
      apply app_inv_tail in Q. subst p. exists (Some ds), ds. split; auto. split; [|reflexivity]. cbn. split; auto. split; auto.
    + exists None, []. cbn. auto.
  - intros ([d|] & x & -> & N & ->); cbn in N.
    + destruct N as [-> N]. apply RelAltL. cbn [cap]. apply rel_grp_intro. apply rel_plus_intro. exact N.
    + subst x. apply RelAltR. constructor.
Qed.
Lemma rel_epoch s g s' g' : rel R_epoch s g s' g' <-> exists o x, s = x ++ s' /\ epoch_text o x /\ g' = cap 0 o g.
Proof.
  unfold R_epoch. split.
  - intros H. apply rel_opt in H. destruct H as [H|[-> ->]].
    + apply rel_seq in H. destruct H as (s1 & g1 & H1 & H2). apply rel_grp in H1. destruct H1 as (p & g2 & -> & H1 & ->).
      apply rel_plus_class in H1. destruct H1 as (ds & NE & Q & D & ->). apply app_inv_tail in Q. subst p.
      apply rel_chr in H2. destruct H2 as (c & -> & Hc & ->). apply N.eqb_eq in Hc. subst c.
      exists (Some ds), (ds ++ [33%N]). rewrite <- app_assoc. cbn. split; auto. split; auto. split; auto. split; auto.
    + exists None, []. cbn. auto.
  - intros ([d|] & x & -> & N & ->); cbn in N.
    + destruct N as [N ->]. apply RelAltL. cbn [cap]. rewrite <- app_assoc. econstructor.
      * apply rel_grp_intro. apply rel_plus_intro. exact N.
      * cbn. constructor. reflexivity.
    + subst x. apply RelAltR. constructor.
Qed.
Lemma rel_release s g s' g' : rel R_release s g s' g' <-> exists x, s = x ++ s' /\ dotted x /\ g' = (1, x) :: g.
Proof.
  unfold R_release, Digits, ch. split.
  - intros H. apply rel_grp in H. destruct H as (p & g1 & -> & H & ->).
    apply (rel_blocks _ _ digit_not_dot) in H. destruct H as (t & Q & -> & F). apply app_inv_tail in Q. subst p.
    exists t. auto.
  - intros (x & -> & D & ->). apply rel_grp_intro. apply (rel_blocks_intro is_digit (fun d => (d =? 46)%N)). exact D.
Qed.
Lemma rel_pre s g s' g' : rel R_pre s g s' g' <-> exists o x, s = x ++ s' /\ pre_text o x /\
  g' = match o with None => g | Some (l, n) => cap 3 n ((2, l) :: g) end.
Proof.
  unfold R_pre. split.
  - intros H. apply rel_opt in H. destruct H as [H|[-> ->]]; [|exists None, []; cbn; auto].
    apply rel_seq in H. destruct H as (s1 & g1 & H1 & H). apply rel_sep in H1. destruct H1 as (a & -> & Sa & ->).
    apply rel_seq in H. destruct H as (s2 & g2 & H2 & H). apply rel_grp in H2. destruct H2 as (l & g3 & -> & H2 & ->).
    apply rel_alts in H2. destruct H2 as (x & Q & W & ->). apply app_inv_tail in Q. subst x.
    apply rel_seq in H. destruct H as (s3 & g4 & H3 & H). apply rel_sep in H3. destruct H3 as (b & -> & Sb & ->).
    apply rel_num in H. destruct H as (n & d & -> & N & ->).
    exists (Some (l, n)), (a ++ l ++ b ++ d). rewrite <- !app_assoc. split; auto. split; [|reflexivity].
    exists a, b, d. auto 10.
  - intros (o & x & -> & T & ->). destruct o as [[l n]|]; cbn in T; [|subst x; apply RelAltR; constructor].
    destruct T as (a & b & d & -> & Sa & W & Sb & N). apply RelAltL. rewrite <- !app_assoc.
    econstructor; [apply rel_sep; eauto|]. econstructor; [apply rel_grp_intro; apply rel_alts; eauto|].
    econstructor; [apply rel_sep; eauto|]. apply rel_num. eauto.
Qed.
Definition post_caps (n : option str) (g g' : groups) : Prop :=
  (exists d, n = Some d /\ g' = (4, d) :: g) \/ exists l, g' = cap 6 n ((5, l) :: g).
Lemma rel_post s g s' g' : rel R_post s g s' g' -> exists o x, s = x ++ s' /\ post_text o x /\
  match o with None => g' = g | Some n => post_caps n g g' end.
Proof.
  unfold R_post. intros H. apply rel_opt in H. destruct H as [H|[-> ->]]; [|exists None, []; cbn; auto].
  apply rel_alt in H. destruct H as [H|H].
  - apply rel_seq in H. destruct H as (s1 & g1 & H1 & H). apply rel_chr in H1. destruct H1 as (c & -> & Hc & ->).
    apply N.eqb_eq in Hc. subst c. apply rel_grp in H. destruct H as (p & g2 & -> & H & ->).
    apply rel_plus_class in H. destruct H as (ds & NE & Q & D & ->). apply app_inv_tail in Q. subst p.
    exists (Some (Some ds)), (45%N :: ds). split; auto. split.
    + left. exists ds. split; auto. split; [split|]; auto.
    + left. eauto.
  - apply rel_seq in H. destruct H as (s1 & g1 & H1 & H). apply rel_sep in H1. destruct H1 as (a & -> & Sa & ->).
    apply rel_seq in H. destruct H as (s2 & g2 & H2 & H). apply rel_grp in H2. destruct H2 as (l & g3 & -> & H2 & ->).
    apply rel_alts in H2. destruct H2 as (x & Q & W & ->). apply app_inv_tail in Q. subst x.
    apply rel_seq in H. destruct H as (s3 & g4 & H3 & H). apply rel_sep in H3. destruct H3 as (b & -> & Sb & ->).
    apply rel_num in H. destruct H as (n & d & -> & N & ->).
    exists (Some n), (a ++ l ++ b ++ d). rewrite <- !app_assoc. split; auto. split.
    + right. exists a, l, b, d. auto 10.
    + right. eauto.
Qed.
Lemma rel_post_intro o x : post_text o x -> forall s g, exists g', rel R_post (x ++ s) g s g'.
Proof.
  intros T s g. unfold R_post. destruct o as [n|]; cbn in T.
  2:{ subst x. exists g. apply RelAltR. constructor. }
  destruct T as [(d & -> & D & ->)|(a & l & b & d & -> & Sa & W & Sb & N)].
  - eexists. apply RelAltL. apply RelAltL. cbn. econstructor; [constructor; reflexivity|].
    apply rel_grp_intro. apply rel_plus_intro. exact D.
  - eexists. apply RelAltL. apply RelAltR. rewrite <- !app_assoc.
    econstructor; [apply rel_sep; eauto|]. econstructor; [apply rel_grp_intro; apply rel_alts; eauto|].
    econstructor; [apply rel_sep; eauto|]. apply rel_num. eauto.
Qed.
Lemma lit_as_alts w s g s' g' : rel (lit w) s g s' g' <-> exists x, s = x ++ s' /\ word [w] x /\ g' = g.
Proof. apply (rel_alts [w]). Qed.
Lemma rel_dev s g s' g' : rel R_dev s g s' g' <-> exists o x, s = x ++ s' /\ dev_text o x /\
  match o with None => g' = g | Some n => exists l, g' = cap 8 n ((7, l) :: g) /\ exists a b d, x = a ++ l ++ b ++ d /\ sep01 a /\ word [u "dev"] l /\ sep01 b /\ num01 n d end.
Proof.
  unfold R_dev. split.
  - intros H. apply rel_opt in H. destruct H as [H|[-> ->]]; [|exists None, []; cbn; auto].
    apply rel_seq in H. destruct H as (s1 & g1 & H1 & H). apply rel_sep in H1. destruct H1 as (a & -> & Sa & ->).
    apply rel_seq in H. destruct H as (s2 & g2 & H2 & H). apply rel_grp in H2. destruct H2 as (l & g3 & -> & H2 & ->).
    apply lit_as_alts in H2. destruct H2 as (x & Q & W & ->). apply app_inv_tail in Q. subst x.
    apply rel_seq in H. destruct H as (s3 & g4 & H3 & H). apply rel_sep in H3. destruct H3 as (b & -> & Sb & ->).
    apply rel_num in H. destruct H as (n & d & -> & N & ->).
    exists (Some n), (a ++ l ++ b ++ d). rewrite <- !app_assoc. split; auto. split.
    + exists a, l, b, d. auto 10.
    + exists l. split; auto. exists a, b, d. auto 10.
  - intros (o & x & -> & T & C). destruct o as [n|]; [|cbn in T; subst; apply RelAltR; constructor].
    destruct C as (l & -> & a & b & d & -> & Sa & W & Sb & N). apply RelAltL. rewrite <- !app_assoc.
    econstructor; [apply rel_sep; eauto|]. econstructor; [apply rel_grp_intro; apply lit_as_alts; eauto|].
    econstructor; [apply rel_sep; eauto|]. apply rel_num. eauto.
Qed.
Lemma rel_local s g s' g' : rel R_local s g s' g' <-> exists o x, s = x ++ s' /\ local_text o x /\ g' = cap 9 o g.
Proof.
  unfold R_local. split.
  - intros H. apply rel_opt in H. destruct H as [H|[-> ->]]; [|exists None, []; cbn; auto].
    apply rel_seq in H. destruct H as (s1 & g1 & H1 & H). apply rel_chr in H1. destruct H1 as (c & -> & Hc & ->).
    apply N.eqb_eq in Hc. subst c. apply rel_grp in H. destruct H as (p & g2 & -> & H & ->).
    apply (rel_blocks _ _ alnum_not_sep) in H. destruct H as (t & Q & -> & F). apply app_inv_tail in Q. subst p.
    exists (Some t), (43%N :: t). cbn. split; auto.
  - intros ([l|] & x & -> & T & ->); cbn in T; [|subst; apply RelAltR; constructor].
    destruct T as [S ->]. apply RelAltL. cbn. econstructor; [constructor; reflexivity|]. apply rel_grp_intro.
    apply (rel_blocks_intro is_alnum is_sep). exact S.
Qed.

(** what the groups hold *)
Definition captured (p : parts) (g : groups) : Prop :=
  group g 0 = p_epoch p /\ group g 1 = Some (p_release p) /\
  group g 2 = option_map fst (p_pre p) /\ group g 3 = match p_pre p with Some (_, n) => n | None => None end /\
  match p_post p with
  | None => group g 4 = None /\ group g 5 = None /\ group g 6 = None
  | Some n => (exists d, n = Some d /\ group g 4 = Some d /\ group g 5 = None /\ group g 6 = None)
              \/ (exists l, group g 4 = None /\ group g 5 = Some l /\ group g 6 = n)
  end /\
  match p_dev p with
  | None => group g 7 = None /\ group g 8 = None
  | Some n => exists l, group g 7 = Some l /\ group g 8 = n
  end /\
  group g 9 = p_local p.

Lemma match_pep440 s g rest : re_match version_re s = Some (g, rest) -> exists p, pep440 s p /\ captured p g.
Proof.
  unfold re_match. intros H. apply rmatch_sound in H. destruct H as (s' & g' & H & Q). injection Q as <- <-.
  unfold version_re in H.
  apply rel_seq in H. destruct H as (s1 & g1 & H1 & H). apply rel_star_class in H1. destruct H1 as (w1 & -> & W1 & ->).
  apply rel_seq in H. destruct H as (s2 & g2 & H2 & H).
  assert (V : exists v, s1 = v ++ s2 /\ (v = [] \/ word [u "v"] v) /\ g2 = []).
  { apply rel_opt in H2. destruct H2 as [H2|[-> ->]]; [|exists []; auto].
    apply lit_as_alts in H2. destruct H2 as (x & -> & W & ->). exists x. auto. }
  destruct V as (v & -> & V & ->). clear H2.
  apply rel_seq in H. destruct H as (s3 & g3 & H3 & H). apply rel_epoch in H3. destruct H3 as (oe & e & -> & E & ->).
  apply rel_seq in H. destruct H as (s4 & g4 & H4 & H). apply rel_release in H4. destruct H4 as (r & -> & D & ->).
  apply rel_seq in H. destruct H as (s5 & g5 & H5 & H). apply rel_pre in H5. destruct H5 as (oa & a & -> & A & G5).
  apply rel_seq in H. destruct H as (s6 & g6 & H6 & H). apply rel_post in H6. destruct H6 as (ob & b & -> & B & G6).
  apply rel_seq in H. destruct H as (s7 & g7 & H7 & H). apply rel_dev in H7. destruct H7 as (od & d & -> & Dv & G7).
  apply rel_seq in H. destruct H as (s8 & g8 & H8 & H). apply rel_local in H8. destruct H8 as (ol & l & -> & L & ->).
  apply rel_seq in H. destruct H as (s9 & g9 & H9 & H). apply rel_star_class in H9. destruct H9 as (w2 & -> & W2 & ->).
  assert (s9 = s' /\ at_eol s' = true /\ g' = cap 9 ol g7) as (-> & EO & ->) by (inversion H; subst; auto).
  exists (mkP oe r oa ob od ol). split.
  - exists w1, v, e, r, a, b, d, l, (w2 ++ s'). cbn. rewrite <- ?app_assoc. do 10 (split; auto).
    unfold all_of in *. rewrite forallb_app, W2. cbn.
    destruct s' as [|c [|c' t]]; cbn in EO |- *; auto; try discriminate. apply N.eqb_eq in EO. subst c. reflexivity.
  - unfold captured. cbn [p_epoch p_release p_pre p_post p_dev p_local].
    assert (I9 : forall i, i <> 9 -> group (cap 9 ol g7) i = group g7 i).
    { intros i Hi. destruct ol; cbn [cap group]; auto. destruct i as [|[|[|[|[|[|[|[|[|[|]]]]]]]]]]; auto. congruence. }
    assert (I7 : forall i, i <> 7 -> i <> 8 -> group g7 i = group g6 i).
    { intros i Hi Hj. destruct od as [n|]; [|now subst]. destruct G7 as (l' & -> & _).
      destruct n; cbn [cap group]; destruct i as [|[|[|[|[|[|[|[|[|[|]]]]]]]]]]; auto; congruence. }
    assert (I6 : forall i, i <> 4 -> i <> 5 -> i <> 6 -> group g6 i = group g5 i).
    { intros i Hi Hj Hk. destruct ob as [n|]; [|now subst]. destruct G6 as [(d' & -> & ->)|(l' & ->)];
      [|destruct n]; cbn [cap group]; destruct i as [|[|[|[|[|[|[|[|[|[|]]]]]]]]]]; auto; congruence. }
    assert (I5 : forall i, i <> 2 -> i <> 3 -> group g5 i = group ((1, r) :: cap 0 oe []) i).
    { intros i Hi Hj. destruct oa as [[l' n]|]; [|now subst]. subst g5.
      destruct n; cbn [cap group]; destruct i as [|[|[|[|[|[|[|[|[|[|]]]]]]]]]]; auto; congruence. }
    assert (Base : forall i, i <> 0 -> i <> 1 -> group ((1, r) :: cap 0 oe []) i = None).
    { intros i Hi Hj. destruct oe; cbn [cap group]; destruct i as [|[|i]]; auto; congruence. }
    repeat split.
    + rewrite I9, I7, I6, I5 by discriminate. destruct oe; reflexivity.
    + rewrite I9, I7, I6, I5 by discriminate. reflexivity.
    + rewrite I9, I7, I6 by discriminate. destruct oa as [[l' n]|]; subst g5; [destruct n; reflexivity|]. apply Base; discriminate.
    + rewrite I9, I7, I6 by discriminate. destruct oa as [[l' n]|]; subst g5.
      * destruct n; [reflexivity|]. cbn [cap group]. cbn. destruct oe; reflexivity.
      * apply Base; discriminate.
    + assert (N456 : group g5 4 = None /\ group g5 5 = None /\ group g5 6 = None).
      { rewrite !I5 by discriminate. rewrite !Base by discriminate. auto. }
      destruct N456 as (N4 & N5 & N6). rewrite !I9, !I7 by discriminate.
      destruct ob as [n|]; [|subst g6; auto]. destruct G6 as [(d' & -> & ->)|(l' & ->)].
      * left. exists d'. cbn [group]. cbn. auto.
      * right. exists l'. destruct n; cbn [cap group]; cbn; auto.
    + rewrite !I9 by discriminate. assert (N8 : group g6 7 = None /\ group g6 8 = None).
      { rewrite !I6, !I5, !Base by discriminate. auto. }
      destruct N8 as [N7 N8]. destruct od as [n|]; [|subst g7; auto].
      destruct G7 as (l' & -> & _). exists l'. destruct n; cbn [cap group]; cbn; auto.
    + destruct ol; [reflexivity|]. cbn [cap]. rewrite I7, I6, I5 by discriminate. apply Base; discriminate.
Qed.

Lemma pep440_match s p : pep440 s p -> re_match version_re s <> None.
Proof.
  intros (w1 & v & e & r & a & b & d & l & w2 & -> & -> & W1 & V & E & D & A & B & Dv & L & W2).
  destruct (rel_post_intro _ _ B (d ++ l ++ w2) (match p_pre p with None => (1, p_release p) :: cap 0 (p_epoch p) [] | Some (l, n) => cap 3 n ((2, l) :: (1, p_release p) :: cap 0 (p_epoch p) []) end)) as (g6 & G6).
  assert (G7 : exists g7, rel R_dev (d ++ l ++ w2) g6 (l ++ w2) g7).
  { destruct (p_dev p) as [n|] eqn:Ep.
    - destruct Dv as (x & y & z & t & -> & S1 & W & S2 & N). eexists. apply rel_dev. exists (Some n), (x ++ y ++ z ++ t).
      split; auto. split; [exists x, y, z, t; auto 10|]. exists y. split; [reflexivity|]. exists x, z, t. auto 10.
    - exists g6. apply rel_dev. exists None, d. auto. }
  destruct G7 as (g7 & G7).
  unfold re_match. eapply rmatch_complete with (s' := []) (g' := cap 9 (p_local p) g7); [|discriminate].
  unfold version_re.
  econstructor; [apply rel_star_intro; exact W1|].
  econstructor.
  { instantiate (1 := []). instantiate (1 := e ++ p_release p ++ a ++ b ++ d ++ l ++ w2). destruct V as [->|V].
    - apply RelAltR. constructor. - apply RelAltL. apply lit_as_alts. eauto. }
  econstructor; [apply rel_epoch; exists (p_epoch p), e; eauto|].
  econstructor; [apply rel_release; exists (p_release p); eauto|].
  econstructor; [apply rel_pre; exists (p_pre p), a; split; [reflexivity|split; [exact A|reflexivity]]|].
  econstructor; [exact G6|].
  econstructor; [exact G7|].
  econstructor; [apply rel_local; exists (p_local p), l; eauto|].
  econstructor; [rewrite <- (app_nil_r w2); apply rel_star_intro; exact W2|].
  constructor. reflexivity.
Qed.
