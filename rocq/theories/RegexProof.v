(** Soundness and completeness of the matcher against the declarative meaning. *)
From Verif Require Import Regex PyStrProof.

(** [rel r s g s' g']: r can match a prefix of s leaving s', turning captures g into g' *)
Inductive rel : re -> str -> groups -> str -> groups -> Prop :=
| RelEps s g : rel Eps s g s g
| RelChr p c s g : p c = true -> rel (Chr p) (c :: s) g s g
| RelSeq a b s g s1 g1 s2 g2 : rel a s g s1 g1 -> rel b s1 g1 s2 g2 -> rel (Seq a b) s g s2 g2
| RelAltL a b s g s' g' : rel a s g s' g' -> rel (Alt a b) s g s' g'
| RelAltR a b s g s' g' : rel b s g s' g' -> rel (Alt a b) s g s' g'
| RelStar0 a s g : rel (Star a) s g s g
| RelStar1 a s g s1 g1 s2 g2 : rel a s g s1 g1 -> length s1 < length s -> rel (Star a) s1 g1 s2 g2 -> rel (Star a) s g s2 g2
| RelGrp i a s g s' g' : rel a s g s' g' -> rel (Grp i a) s g s' ((i, firstn (length s - length s') s) :: g')
| RelEol s g : at_eol s = true -> rel Eol s g s g.

Lemma rel_suffix r s g s' g' : rel r s g s' g' -> exists p, s = p ++ s'.
Proof.
  induction 1; try (exists []; reflexivity).
  - exists [c]. reflexivity.
  - destruct IHrel1 as [p1 ->], IHrel2 as [p2 ->]. exists (p1 ++ p2). now rewrite <- app_assoc.
  - auto. - auto.
  - destruct IHrel1 as [p1 ->], IHrel2 as [p2 ->]. exists (p1 ++ p2). now rewrite <- app_assoc.
  - auto.
Qed.

Theorem rmatch_sound R r : forall s g (k : str -> groups -> option R) x,
  rmatch r s g k = Some x -> exists s' g', rel r s g s' g' /\ k s' g' = Some x.
Proof.
  induction r as [|p|a IHa b IHb|a IHa b IHb|a IHa|i a IHa|]; intros s g k x H.
  - exists s, g. split; auto. constructor.
  - cbn in H. destruct s as [|c t]; [discriminate|]. destruct (p c) eqn:E; [|discriminate].
    exists t, g. split; auto. now constructor.
  - cbn in H. apply IHa in H. destruct H as (s1 & g1 & R1 & H). apply IHb in H. destruct H as (s2 & g2 & R2 & H).
    exists s2, g2. split; auto. econstructor; eauto.
  - cbn in H. destruct (rmatch a s g k) eqn:E.
    + injection H as ->. apply IHa in E. destruct E as (s1 & g1 & R1 & H1). exists s1, g1. split; auto. now constructor.
    + apply IHb in H. destruct H as (s1 & g1 & R1 & H1). exists s1, g1. split; auto. now apply RelAltR.
  - cbn in H. revert s g H.
    assert (L : forall n s g, (fix loop (n : nat) (s : str) (g : groups) : option R :=
          match n with
          | O => k s g
          | S n => match rmatch a s g (fun s' g' => if length s' <? length s then loop n s' g' else None) with
                   | Some x => Some x
                   | None => k s g
                   end
          end) n s g = Some x -> exists s' g', rel (Star a) s g s' g' /\ k s' g' = Some x).
    { induction n as [|n IHn]; intros s g H.
      - exists s, g. split; auto. constructor.
      - match type of H with match ?e with _ => _ end = _ => destruct e eqn:E end.
        + injection H as ->. apply IHa in E. destruct E as (s1 & g1 & R1 & H1).
          destruct (length s1 <? length s) eqn:Q; [|discriminate]. apply Nat.ltb_lt in Q. apply IHn in H1.
          destruct H1 as (s2 & g2 & R2 & H2). exists s2, g2. split; auto. eapply RelStar1; eauto.
        + exists s, g. split; auto. constructor. }
    intros s g H. eapply L. exact H.
  - cbn in H. apply IHa in H. destruct H as (s1 & g1 & R1 & H). eexists _, _. split; [constructor; eauto|auto].
  - cbn in H. destruct (at_eol s) eqn:E; [|discriminate]. exists s, g. split; auto. now constructor.
Qed.

Theorem rmatch_complete R r : forall s g (k : str -> groups -> option R) s' g',
  rel r s g s' g' -> k s' g' <> None -> rmatch r s g k <> None.
Proof.
  induction r as [|p|a IHa b IHb|a IHa b IHb|a IHa|i a IHa|]; intros s g k s' g' H K.
  - inversion H; subst. exact K.
  - inversion H as [|? c ? ? Hc| | | | | | |]; subst. cbn. now rewrite Hc.
  - inversion H; subst. cbn. eapply IHa; [eassumption|]. cbn. eapply IHb; eassumption.
  - cbn. destruct (rmatch a s g k) eqn:E; [discriminate|]. inversion H; subst.
    + exfalso. eapply IHa; eauto.
    + eapply IHb; eauto.
  - cbn. assert (L : forall n s g, length s <= n -> rel (Star a) s g s' g' -> (fix loop (n : nat) (s : str) (g : groups) : option R :=
          match n with
          | O => k s g
          | S n => match rmatch a s g (fun s' g' => if length s' <? length s then loop n s' g' else None) with
                   | Some x => Some x
                   | None => k s g
                   end
          end) n s g <> None).
    { induction n as [|n IHn]; intros s0 g0 Hn Hr.
      - inversion Hr; subst; auto. lia.
      - match goal with |- match ?e with _ => _ end <> _ => destruct e eqn:E; [discriminate|] end.
        inversion Hr; subst; auto. exfalso. revert E.
        eapply IHa; [eassumption|]. cbn beta. match goal with Q : length _ < length s0 |- _ => rewrite (proj2 (Nat.ltb_lt _ _) Q) end.
        apply IHn; auto. lia. }
    apply L; auto.
  - inversion H; subst. cbn. eapply IHa; [eassumption|]. exact K.
  - inversion H as [| | | | | | | |? ? Hc]; subst. cbn. now rewrite Hc.
Qed.

(** greedy repetition of a character class *)
Lemma star_class R p : forall ds rest g (k : str -> groups -> option R) x,
  forallb p ds = true -> match rest with c :: _ => p c = false | [] => True end ->
  k rest g = Some x -> rmatch (Star (Chr p)) (ds ++ rest) g k = Some x.
Proof.
  intros ds rest g k x D N K. cbn [rmatch].
  assert (L : forall ds n, forallb p ds = true -> length ds <= n -> (fix loop (n : nat) (s : str) (g : groups) : option R :=
          match n with
          | O => k s g
          | S n => match rmatch (Chr p) s g (fun s' g' => if length s' <? length s then loop n s' g' else None) with
                   | Some x => Some x
                   | None => k s g
                   end
          end) n (ds ++ rest) g = Some x).
  { clear D ds. induction ds as [|c ds IH]; intros n D Hn.
    - destruct n; cbn [app]; auto. cbn [rmatch]. destruct rest as [|c t]; auto. now rewrite N.
    - destruct n; [cbn in Hn; lia|]. cbn in D. apply andb_true_iff in D. destruct D as [D1 D2].
      cbn [app rmatch]. rewrite D1.
      assert (Q : length (ds ++ rest) <? length (c :: ds ++ rest) = true) by (apply Nat.ltb_lt; cbn; lia).
      rewrite Q. rewrite IH; auto. cbn in Hn. lia. }
  apply L; auto. rewrite app_length. lia.
Qed.
Lemma plus_class R p : forall ds rest g (k : str -> groups -> option R) x,
  ds <> [] -> forallb p ds = true -> match rest with c :: _ => p c = false | [] => True end ->
  k rest g = Some x -> rmatch (Plus (Chr p)) (ds ++ rest) g k = Some x.
Proof.
  intros ds rest g k x NE D N K. destruct ds as [|c ds]; [congruence|]. cbn in D. apply andb_true_iff in D. destruct D as [D1 D2].
  unfold Plus. cbn [rmatch app]. rewrite D1. apply (star_class R p); auto.
Qed.
Lemma grp_plus_class R i p : forall ds rest g (k : str -> groups -> option R) x,
  ds <> [] -> forallb p ds = true -> match rest with c :: _ => p c = false | [] => True end ->
  k rest ((i, ds) :: g) = Some x -> rmatch (Grp i (Plus (Chr p))) (ds ++ rest) g k = Some x.
Proof.
  intros ds rest g k x NE D N K.
  change (rmatch (Grp i (Plus (Chr p))) (ds ++ rest) g k) with
    (rmatch (Plus (Chr p)) (ds ++ rest) g (fun s' g' => k s' ((i, firstn (length (ds ++ rest) - length s') (ds ++ rest)) :: g'))).
  apply plus_class; auto. rewrite app_length.
  replace (length ds + length rest - length rest) with (length ds) by lia. now rewrite firstn_app, Nat.sub_diag, firstn_all, app_nil_r.
Qed.

(** how a match can fail: no way to match leads to success *)
Lemma rmatch_none R r s g (k : str -> groups -> option R) :
  (forall s' g', rel r s g s' g' -> k s' g' = None) -> rmatch r s g k = None.
Proof.
  intros H. destruct (rmatch r s g k) eqn:E; auto. apply rmatch_sound in E. destruct E as (s' & g' & A & B).
  rewrite (H _ _ A) in B. discriminate.
Qed.

(** inversion *)
Lemma rel_chr p s g s' g' : rel (Chr p) s g s' g' -> exists c, s = c :: s' /\ p c = true /\ g' = g.
Proof. inversion 1; subst. eauto. Qed.
Lemma rel_seq a b s g s' g' : rel (Seq a b) s g s' g' -> exists s1 g1, rel a s g s1 g1 /\ rel b s1 g1 s' g'.
Proof. inversion 1; subst. eauto. Qed.
Lemma rel_opt a s g s' g' : rel (Opt a) s g s' g' -> rel a s g s' g' \/ (s' = s /\ g' = g).
Proof. inversion 1; subst; auto. match goal with H : rel Eps _ _ _ _ |- _ => inversion H; subst end. auto. Qed.
Lemma rel_alt a b s g s' g' : rel (Alt a b) s g s' g' -> rel a s g s' g' \/ rel b s g s' g'.
Proof. inversion 1; subst; auto. Qed.
Lemma rel_grp i a s g s' g' : rel (Grp i a) s g s' g' -> exists p g1, s = p ++ s' /\ rel a s g s' g1 /\ g' = (i, p) :: g1.
Proof.
  inversion 1; subst. match goal with H : rel a _ _ _ _ |- _ => destruct (rel_suffix _ _ _ _ _ H) as [p ->] end.
  exists p. eexists. split; auto. split; eauto. rewrite app_length.
  replace (length p + length s' - length s') with (length p) by lia. now rewrite firstn_app, Nat.sub_diag, firstn_all, app_nil_r.
Qed.
Lemma rel_star_class p s g s' g' : rel (Star (Chr p)) s g s' g' -> exists ds, s = ds ++ s' /\ forallb p ds = true /\ g' = g.
Proof.
  intros H. remember (Star (Chr p)) as r eqn:E. induction H; try discriminate.
  - exists []. auto.
  - injection E as ->. apply rel_chr in H. destruct H as (c & -> & Hc & ->).
    destruct (IHrel2 eq_refl) as (ds & -> & D & ->). exists (c :: ds). cbn. rewrite Hc. auto.
Qed.
Lemma rel_plus_class p s g s' g' : rel (Plus (Chr p)) s g s' g' -> exists ds, ds <> [] /\ s = ds ++ s' /\ forallb p ds = true /\ g' = g.
Proof.
  intros H. apply rel_seq in H. destruct H as (s1 & g1 & H1 & H2). apply rel_chr in H1. destruct H1 as (c & -> & Hc & ->).
  apply rel_star_class in H2. destruct H2 as (ds & -> & D & ->). exists (c :: ds). cbn. rewrite Hc. repeat split; auto. discriminate.
Qed.
Lemma rel_lit p w : forall s g s' g', rel (Lit p w) s g s' g' -> exists w', s = w' ++ s' /\ Forall2 (fun c d => p c d = true) w w' /\ g' = g.
Proof.
  induction w as [|c w IH]; intros s g s' g' H; cbn in H.
  - inversion H; subst. exists []. auto.
  - apply rel_seq in H. destruct H as (s1 & g1 & H1 & H2). apply rel_chr in H1. destruct H1 as (d & -> & Hc & ->).
    apply IH in H2. destruct H2 as (w' & -> & F & ->). exists (d :: w'). auto.
Qed.
