(** lines_strip_comments (lemmas for C93). *)
From Verif Require Import DeprModel DeprSpec DeprProof DeprProof2 DeprProps PyStrProof DelimProof LinesProof LinesProof3 LinesSpec LinesSpec2 LinesProps2 SplitSpec SplitProof.

(** what is yielded is the start of s; and a quoted segment that is not the last ends with a quote mark *)
Lemma segs_prefix quote tq esc s l e : quoted_segments quote tq esc s l e -> exists rest, s = concat (map snd l) ++ rest.
Proof.
  induction 1 as [|p s l e P1 P2 P3 H IH D|s mark s' body rest l e O H1 H2 IH|s mark s' O H1|q s l e T Q N H IH|p q T Q P]; cbn [map concat snd app].
  - now exists [].
  - destruct IH as [r ->]. exists r. now rewrite app_assoc.
  - destruct IH as [r ->]. exists r. destruct O as (q' & _ & -> & _). assert (Es : s' = body ++ mark ++ concat (map snd l) ++ r) by (clear - H1; induction H1; cbn; congruence). rewrite Es. now rewrite <- !app_assoc.
  - exists []. now rewrite !app_nil_r.
  - destruct IH as [r ->]. now exists r.
  - now exists (p ++ [q]).
Qed.
Lemma segs_before quote tq esc s l e : quoted_segments quote tq esc s l e -> forall before g after, l = before ++ g :: after ->
  before = [] \/ fst g = true \/ exists front last q, before = front ++ [(true, last ++ [q])] /\ quote q.
Proof.
  induction 1 as [|p s l e P1 P2 P3 H IH D|s mark s' body rest l e O H1 H2 IH|s mark s' O H1|q s l e T Q N H IH|p q T Q P]; intros before g after E.
  - destruct before; discriminate.
  - destruct before as [|b before]; [auto|]. injection E as <- E. right. destruct (IH before g after E) as [->|[A|(f & la & q & -> & Q)]]; auto.
    + cbn [app] in E. inversion H as [|p' s'' l' e'' Q1 Q2 Q3 _ _|? ? ? ? ? ? ? O|? ? ? O|? ? ? ? ? Q|]; subst; try discriminate; try (match goal with X : _ :: _ = g :: after |- _ => injection X as <- _; left; reflexivity end).
      exfalso. destruct p' as [|c p']; [congruence|]. apply (Q2 c); [now left|]. apply (P3 c (p' ++ s'')). reflexivity.
    + right. exists ((false, p) :: f), la, q. auto.
  - destruct before as [|b before]; [auto|]. injection E as <- E. right. destruct (IH before g after E) as [->|[A|(f & la & q & -> & Q)]]; auto.
    + right. destruct O as (q & Q & _ & M). destruct (exists_last (l := mark)) as (m & q' & Em); [destruct tq; [destruct M as [->|[-> _]]|subst]; discriminate|].
      exists [], (mark ++ body ++ m), q'. cbn [app]. split; [rewrite Em at 2; now rewrite <- !app_assoc|]. replace q' with q; auto.
      assert (In q' mark) by (rewrite Em; apply in_app_iff; right; now left). destruct tq; [destruct M as [->|[-> _]]|subst mark]; cbn in H; tauto.
    + right. exists ((true, mark ++ body ++ mark) :: f), la, q. auto.
  - destruct before as [|b before]; [auto|]. injection E as _ E. destruct before; discriminate.
  - destruct before as [|b before]; [auto|]. injection E as <- E. right. destruct (IH before g after E) as [->|[A|(f & la & q' & -> & Q')]]; auto.
    + right. exists [], [q], q. auto.
    + right. exists ((true, [q; q]) :: f), la, q'. auto.
  - destruct before; discriminate.
Qed.

Lemma exists_last_or_nil {A} (l : list A) : l = [] \/ exists t c, l = t ++ [c].
Proof. destruct l as [|a l]; [auto|]. right. destruct (exists_last (l := a :: l)) as (t & c & E); [discriminate|eauto]. Qed.
Section C.
  Context (is_bytes : bool) (markers : list str) (do_rstrip : bool) (NE : nonempty markers).
  Lemma keep_spec segs up : match keep_segments is_bytes markers do_rstrip segs up with
    | Ok kept => (up = None /\ Forall (no_marker markers) segs /\ kept = concat (map snd segs)) \/
                 (exists before text after x w t, segs = before ++ (false, text) :: after /\ Forall (no_marker markers) before /\ text = x ++ w ++ t /\ In w markers /\
                    (forall i, i < length x -> ~ sep_at markers text i) /\ kept = concat (map snd before) ++ (if do_rstrip then rstrip is_bytes x else x))
    | Err e => up = Some e /\ Forall (no_marker markers) segs
    end.
  Proof.
    induction segs as [|[[|] g] segs IH]; cbn [keep_segments].
    - destruct up; auto.
    - destruct (keep_segments is_bytes markers do_rstrip segs up) as [kept|e]; cbn [rmap].
      + destruct IH as [(A & B & ->)|(b & t0 & a & x & w & t & -> & F & E & I & L & ->)]; [left|right].
        * split; auto. split; auto. constructor; auto. now left.
        * exists ((true, g) :: b), t0, a, x, w, t. split; auto. split; [constructor; auto; now left|]. split; auto. split; auto. split; auto. cbn. now rewrite app_assoc.
      + destruct IH as [A B]. split; auto. constructor; auto. now left.
    - pose proof (split_once markers NE g) as S. pose proof (re_split1 (separators_re markers true) g) as S1. destruct (re_split _ (Some 1) g) as [[|[x w] r] y].
      + subst y. destruct (keep_segments is_bytes markers do_rstrip segs up) as [kept|e]; cbn [rmap].
        * destruct IH as [(A & B & ->)|(b & t0 & a & x & w & t & -> & F & E & I & L & ->)]; [left|right].
          -- split; auto. split; auto. constructor; auto. now right.
          -- exists ((false, g) :: b), t0, a, x, w, t. split; auto. split; [constructor; auto; now right|]. split; auto. split; auto. split; auto. cbn. now rewrite app_assoc.
        * destruct IH as [A B]. split; auto. constructor; auto. now right.
      + destruct S as (E & I & L). right. exists [], g, segs, x, w, y. split; auto.
  Qed.
End C.
Lemma clip_by_count i (r b : str) : has_its_end (i, r ++ b) -> b <> [] -> exists q, clip_trailing i (r ++ b) (ByInt (Z.of_nat (length b))) = Ok q /\ taken_off [] r b (i, r ++ b) q.
Proof.
  intros W N. unfold clip_trailing. cbn [clip_count]. rewrite slice_to_neg by auto. destruct (_ =? 0)%Z eqn:Z0; [destruct b; [congruence|cbn in Z0; lia]|].
  destruct (is_nil r) eqn:Nr.
  - apply is_nil_iff in Nr. subst r. destruct (clip_all_taken i ([] ++ b) W) as (q & -> & H1 & H2 & H3 & H4 & H5). exists q. split; auto. unfold taken_off. cbn [fst snd app]. split; auto. split; auto. split; auto. split; auto. split; [|auto].
    intros [H|H]; [congruence|]. cbn in H. congruence.
  - eexists. split; [reflexivity|]. apply is_nil_false in Nr.
    assert (slice_from (r ++ b) (- Z.of_nat (length b)) = b) as ->.
    { unfold slice_from. destruct (_ <? _)%Z eqn:E; [|lia]. rewrite app_length. replace (Z.to_nat (Z.of_nat (length r + length b) + - Z.of_nat (length b))) with (length r) by lia. rewrite skipn_app, Nat.sub_diag, skipn_all. reflexivity. }
    unfold taken_off. cbn. rewrite ?app_nil_r. split; auto. split; auto. split; auto. split; auto. split; auto. congruence.
Qed.
Section D.
  Context (is_bytes : bool) (markers quotes : list str) (backslash : str) (do_rstrip triple_quotes : bool) (NE : nonempty markers).
  Context (NW : forall c, In [c] quotes -> white is_bytes c = false).
  Definition segmentation (line : str) (segs : list (bool * str)) (e : option exn) : Prop :=
    if is_nil quotes then segs = [(false, line)] /\ e = None else quoted_segments (fun c => In [c] quotes) triple_quotes (fun c => backslash = [c]) line segs e.
  Lemma strip_comment_ok p : has_its_end p -> match strip_comment_old is_bytes markers quotes backslash do_rstrip triple_quotes p with
    | Ok (Some q) => old_comment_stripped markers (white is_bytes) do_rstrip segmentation p q
    | Ok None => False
    | Err e => exists segs, segmentation (snd p) segs (Some e) /\ Forall (no_marker markers) segs
    end.
  Proof.
    destruct p as [i line]. intros W. unfold strip_comment_old.
    set (g := if is_nil quotes then _ else _). destruct g as [segs up] eqn:G.
    assert (Sg : segmentation line segs up).
    { unfold segmentation. unfold g in G. destruct (is_nil quotes); [injection G as <- <-; auto|]. now apply C92_split_quoted_strings. }
    assert (Jn : up = None -> concat (map snd segs) = line).
    { intros ->. unfold segmentation in Sg. destruct (is_nil quotes); [destruct Sg as [-> _]; apply app_nil_r|]. eapply segs_text; eauto. }
    assert (Pf : exists rest, line = concat (map snd segs) ++ rest).
    { unfold segmentation in Sg. destruct (is_nil quotes); [destruct Sg as [-> _]; exists []; cbn; now rewrite !app_nil_r|]. eapply segs_prefix; eauto. }
    assert (Lst : forall before text after, segs = before ++ (false, text) :: after -> before = [] \/ exists front last q, before = front ++ [(true, last ++ [q])] /\ white is_bytes q = false).
    { intros before text after E. unfold segmentation in Sg. destruct (is_nil quotes).
      - destruct Sg as [Sg _]. rewrite Sg in E. destruct before as [|? [|]]; [auto|discriminate|discriminate].
      - destruct (segs_before _ _ _ _ _ _ Sg before _ after E) as [A|[A|(f & la & q & A & Q)]]; auto; [discriminate|]. right. exists f, la, q. auto. }
    clear g G. pose proof (keep_spec is_bytes markers do_rstrip NE segs up) as K. destruct (keep_segments is_bytes markers do_rstrip segs up) as [kept|e]; cbn [rbind].
    - destruct K as [(-> & F & ->)|(before & text & after & x & w & t & E & F & Et & I & L & ->)].
      + rewrite (Jn eq_refl), Z.sub_diag. cbn. exists segs, None. split; auto.
      + destruct Pf as [rest Pf].
        set (x' := if do_rstrip then rstrip is_bytes x else x).
        assert (X : exists ws, x = x' ++ ws /\ (do_rstrip = true -> all_of (white is_bytes) ws /\ not_at_end (white is_bytes) x')).
        { unfold x'. destruct do_rstrip; [|exists []; rewrite app_nil_r; split; auto; discriminate]. destruct (rstrip_spec is_bytes x) as (ws & A & B & C). exists ws. split; auto. intros _. split; [now apply all_forallb|now apply ends_rev]. }
        destruct X as (ws & Ex & Xr).
        assert (w <> []) by (unfold nonempty in NE; rewrite Forall_forall in NE; auto).
        set (r := concat (map snd before) ++ x'). set (b := ws ++ w ++ t ++ concat (map snd after) ++ rest).
        assert (El : line = r ++ b). { rewrite Pf, E, map_app, concat_app. cbn [map concat snd]. rewrite Et, Ex. unfold r, b. now rewrite <- !app_assoc. }
        assert (Nb : b <> []). { unfold b. destruct ws; [destruct w; [congruence|discriminate]|discriminate]. }
        cbn zeta. match goal with |- context [(Z.of_nat (length line) - ?k)%Z] => replace (Z.of_nat (length line) - k)%Z with (Z.of_nat (length b)) by (change k with (Z.of_nat (length r)); rewrite El, app_length; lia) end.
        rewrite El. rewrite El in W.
        destruct (_ =? 0)%Z eqn:Z0; [destruct b; [congruence|cbn in Z0; lia]|]. destruct (clip_by_count i r b W Nb) as (q & -> & T). cbn [rmap].
        rewrite El in Sg. exists segs, up. split; [exact Sg|]. right. exists (concat (map snd before) ++ x), r, b. split; [exists before, text, after, x, w, t; auto 10|]. split; [|exact T].
        destruct do_rstrip; [|reflexivity]. destruct (Xr eq_refl) as [A1 A2]. exists ws. split; [unfold r; rewrite Ex at 1; now rewrite app_assoc|]. split; auto.
        unfold r. destruct (Lst _ _ _ E) as [->|(f & la & q' & -> & Q)]; [exact A2|]. destruct (exists_last_or_nil x') as [->|(x'' & c & Ec)].
        * rewrite app_nil_r, map_app, concat_app. cbn. rewrite app_nil_r, app_assoc. intros c' t' Ec'. apply app_inj_tail in Ec'. destruct Ec' as [_ <-]. exact Q.
        * rewrite Ec, app_assoc. intros c' t' Ec'. apply app_inj_tail in Ec'. destruct Ec' as [_ <-]. apply (A2 c x''). exact Ec.
    - destruct K as [-> F]. exists segs. auto.
  Qed.
End D.
