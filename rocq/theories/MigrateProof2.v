(** split_quoted_strings: the old one, character by character, and the scanner of the new one. *)
From Verif Require Import PyStr PyBase PyStrProof DeprModel.
From Verif Require DelimModel DelimSpec DelimProps DelimProof2.
Notation segment := DelimSpec.segment.
Notation scan := DelimSpec.scan.
Notation chr_in := DelimSpec.chr_in.

(** a segment as the old function shows it *)
Definition shown (g : segment) : bool * str := (negb (is_nil (DelimSpec.lead g)), DelimSpec.lead g ++ DelimSpec.body g ++ DelimSpec.trail g).
Section Quoted.
  Context (qs : list chr) (e : chr) (E : ~ In e qs).
  Notation loop := (old_loop (map (fun c : chr => [c]) qs) false [e]).
  Notation scan := (scan qs [] (Some e)).
  Definition no_escape (l : list (bool * str)) : Prop := forall t, In (false, t) l -> ~ In e t.
  Lemma is_quote_in c : is_quote (map (fun c : chr => [c]) qs) c = chr_in c qs.
  Proof. unfold is_quote, DelimSpec.chr_in. clear E. induction qs as [|q l IH]; auto. cbn [map existsb]. rewrite IH. f_equal. cbn. apply andb_true_r. Qed.
  Lemma chr_in_iff c l : chr_in c l = true <-> In c l.
  Proof. unfold DelimSpec.chr_in. rewrite existsb_exists. split; [intros (x & I & H); apply N.eqb_eq in H; now subst|intros I; exists c; split; auto; apply N.eqb_refl]. Qed.
  Lemma e_no_quote : chr_in e qs = false.
  Proof. apply not_true_iff_false. rewrite chr_in_iff. exact E. Qed.
  Lemma loop_outside c s text : loop (c :: s) text None false false = if chr_in c qs then flush_text text (loop s [c] (Some c) false false) else loop s (text ++ [c]) None false false.
  Proof. cbn [old_loop]. rewrite is_quote_in. now destruct (chr_in c qs). Qed.
  Lemma loop_keeps s : forall text, text <> [] -> exists w l x, loop s text None false false = ((false, text ++ w) :: l, x).
  Proof.
    induction s as [|c s IH]; intros text N; [cbn; destruct text; [congruence|]; exists [], [], None; now rewrite app_nil_r|]. rewrite loop_outside. destruct (chr_in c qs).
    - unfold flush_text. destruct text; [congruence|]. cbn [is_nil]. destruct (loop s [c] (Some c) false false) as [l x]. exists [], l, x. cbn. now rewrite app_nil_r.
    - destruct (IH (text ++ [c]) ltac:(now destruct text)) as (w & l & x & ->). exists (c :: w), l, x. now rewrite <- app_assoc.
  Qed.
  Lemma unquoted_shown t : map shown (DelimSpec.unquoted_segment t) = match t with [] => [] | _ => [(false, t)] end.
  Proof. destruct t as [|c t]; auto. cbn. unfold shown. cbn. now rewrite app_nil_r. Qed.
  Lemma flush_shown t (g : list (bool * str)) : flush_text t (g, None) = (map shown (DelimSpec.unquoted_segment t) ++ g, None).
  Proof. rewrite unquoted_shown. destruct t; reflexivity. Qed.

  Lemma loop_scan n : forall s, length s <= n ->
    (forall text, ~ In e text -> no_escape (fst (loop s text None false false)) -> loop s text None false false = (map shown (scan None text s), None)) /\
    (forall q body, q <> e -> In q qs -> no_escape (fst (loop s (q :: body) (Some q) false false)) ->
       loop s (q :: body) (Some q) false false = (map shown (scan (Some (q, [q])) body s), None)).
  Proof.
    induction n as [|n IH]; intros s L.
    - destruct s; [|cbn in L; lia]. split; intros.
      + cbn. rewrite unquoted_shown. destruct text; reflexivity.
      + cbn. unfold shown. cbn. now rewrite app_nil_r.
    - destruct s as [|c s].
      { split; intros.
        - cbn. rewrite unquoted_shown. destruct text; reflexivity.
        - cbn. unfold shown. cbn. now rewrite app_nil_r. }
      cbn in L. destruct (IH s ltac:(lia)) as [Out In_]. split.
      + intros text N H. rewrite loop_outside in H |- *. destruct (c =? e)%N eqn:Ce.
        { apply N.eqb_eq in Ce. subst c. rewrite e_no_quote in H. exfalso. destruct (loop_keeps s (text ++ [e]) ltac:(now destruct text)) as (w & l & x & Ew). rewrite Ew in H. apply (H (text ++ [e] ++ w)).
          - cbn [fst]. left. now rewrite app_assoc.
          - apply in_app_iff. right. now left. }
        assert (Es : scan None text (c :: s) = if chr_in c qs then DelimSpec.unquoted_segment text ++ scan (Some (c, [c])) [] s else scan None (text ++ [c]) s).
        { rewrite DelimProof2.scan_cons. unfold DelimProof2.escaped_pair. rewrite app_nil_r. cbn zeta. destruct s; auto. rewrite Ce. reflexivity. }
        rewrite Es. destruct (chr_in c qs) eqn:Cq.
        * assert (H' : no_escape (fst (loop s [c] (Some c) false false))).
          { intros t I. apply (H t). unfold flush_text. destruct (is_nil text); auto. destruct (loop s [c] (Some c) false false). cbn. auto. }
          rewrite (In_ c []); auto; [|apply N.eqb_neq in Ce; exact Ce|now apply chr_in_iff]. rewrite flush_shown, map_app. reflexivity.
        * apply Out; auto. intros I. apply in_app_iff in I. destruct I as [I|[->|[]]]; auto. now rewrite N.eqb_refl in Ce.
      + intros q body Nq Iq H. cbn [old_loop] in H |- *. replace (str_eqb [c] [e]) with (c =? e)%N in * by (cbn; now rewrite andb_true_r).
        assert (Plain : forall c' s', (c' =? e)%N = false -> scan (Some (q, [q])) body (c' :: s') = if (c' =? q)%N then DelimSpec.mkSegment [q] body [q] [q] :: scan None [] s' else scan (Some (q, [q])) (body ++ [c']) s').
        { intros c' s' X. rewrite DelimProof2.scan_cons. unfold DelimProof2.escaped_pair. cbn zeta. destruct s'; auto. rewrite X. reflexivity. }
        destruct (c =? e)%N eqn:Ce.
        * apply N.eqb_eq in Ce. subst c. assert (Eq : (e =? q)%N = false) by (apply N.eqb_neq; congruence).
          destruct s as [|d s].
          { cbn. rewrite Eq. cbn. unfold shown. cbn. now rewrite !app_nil_r. }
          cbn [old_loop] in H |- *. cbn in L. destruct (IH s ltac:(lia)) as [_ In2].
          change ((q :: body) ++ [e]) with (q :: (body ++ [e])) in *. change ((q :: body ++ [e]) ++ [d]) with (q :: (body ++ [e]) ++ [d]) in *.
          rewrite (In2 q ((body ++ [e]) ++ [d])); auto. f_equal. f_equal. rewrite <- app_assoc. cbn [app].
          rewrite DelimProof2.scan_cons. unfold DelimProof2.escaped_pair. cbn zeta. rewrite N.eqb_refl, Eq. cbn [andb]. destruct (chr_in d qs || (d =? e)%N) eqn:D; [reflexivity|].
          apply orb_false_iff in D. destruct D as [D1 D2]. rewrite DelimProof2.scan_cons. unfold DelimProof2.escaped_pair. cbn zeta. rewrite D2. cbn [andb].
          assert ((d =? q)%N = false) as ->. { apply N.eqb_neq. intros ->. apply chr_in_iff in Iq. congruence. }
          rewrite <- app_assoc. destruct s; reflexivity.
        * rewrite Plain by exact Ce. destruct (c =? q)%N eqn:Cq; cbn [negb] in *.
          { apply N.eqb_eq in Cq. subst c. assert (H' : no_escape (fst (loop s [] None false false))).
            { intros t I. apply (H t). destruct (loop s [] None false false). cbn. auto. }
            rewrite Out; auto. }
          change ((q :: body) ++ [c]) with (q :: (body ++ [c])) in *. apply In_; auto.
  Qed.
End Quoted.

(** no line break, so nothing forbidden *)
Lemma deliver_all bad segs : (forall g, In g segs -> bad g = false) ->
  DelimSpec.deliver bad segs = (map (fun g => (DelimSpec.lead g, DelimSpec.body g, DelimSpec.trail g)) segs, None).
Proof. induction segs as [|g l IH]; intros H; cbn; auto. rewrite (H g (or_introl eq_refl)), IH; auto. intros g' I. apply H. now right. Qed.
Lemma scan_inside qs e : forall n s, length s <= n -> forall mode text, (forall q f, mode = Some (q, f) -> f = [q]) ->
  forall g, In g (DelimSpec.scan qs [] (Some e) mode text s) -> DelimSpec.inside g = DelimSpec.lead g.
Proof.
  induction n as [|n IH]; intros s L mode text M g I.
  - destruct s; [|cbn in L; lia]. cbn in I. destruct mode as [[q f]|]; [destruct I as [<-|[]]; cbn; now rewrite (M q f eq_refl)|]. destruct text; cbn in I; [contradiction|destruct I as [<-|[]]; reflexivity].
  - destruct s as [|c s]; [apply (IH [] ltac:(cbn; lia) mode text M g I)|]. cbn in L. rewrite DelimProof2.scan_cons in I. cbn zeta in I.
    assert (S : In g match mode with
                     | Some (q, first) => if (c =? q)%N then DelimSpec.mkSegment first text [q] [q] :: DelimSpec.scan qs [] (Some e) None [] s else DelimSpec.scan qs [] (Some e) mode (text ++ [c]) s
                     | None => if chr_in c (qs ++ []) then DelimSpec.unquoted_segment text ++ DelimSpec.scan qs [] (Some e) (Some (c, [c])) [] s else DelimSpec.scan qs [] (Some e) mode (text ++ [c]) s
                     end -> DelimSpec.inside g = DelimSpec.lead g).
    { destruct mode as [[q f]|].
      - destruct (c =? q)%N; [|apply IH; auto; lia]. intros [<-|J]; [cbn; now rewrite (M q f eq_refl)|]. revert J. apply IH; [lia|discriminate].
      - destruct (chr_in c (qs ++ [])); [|apply IH; auto; lia]. intros J. apply in_app_iff in J. destruct J as [J|J]; [destruct text; cbn in J; [contradiction|destruct J as [<-|[]]; reflexivity]|].
        revert J. apply IH; [lia|]. intros q f [= <- <-]. reflexivity. }
    destruct s as [|d s]; [now apply S|]. destruct (DelimProof2.escaped_pair qs (Some e) c d); [|now apply S]. revert I. apply IH; auto. cbn in L. lia.
Qed.

(** text outside quotes has no mark at its end *)
Lemma scan_trail qs e : forall n s, length s <= n -> forall mode text, (forall q f, mode = Some (q, f) -> f = [q]) ->
  forall g, In g (DelimSpec.scan qs [] (Some e) mode text s) -> DelimSpec.lead g = [] -> DelimSpec.trail g = [].
Proof.
  induction n as [|n IH]; intros s L mode text M g I Lg.
  - destruct s; [|cbn in L; lia]. cbn in I. destruct mode as [[q f]|]; [destruct I as [<-|[]]; reflexivity|]. destruct text; cbn in I; [contradiction|destruct I as [<-|[]]; reflexivity].
  - destruct s as [|c s]; [apply (IH [] ltac:(cbn; lia) mode text M g I Lg)|]. cbn in L. rewrite DelimProof2.scan_cons in I. cbn zeta in I.
    assert (S : In g match mode with
                     | Some (q, first) => if (c =? q)%N then DelimSpec.mkSegment first text [q] [q] :: DelimSpec.scan qs [] (Some e) None [] s else DelimSpec.scan qs [] (Some e) mode (text ++ [c]) s
                     | None => if chr_in c (qs ++ []) then DelimSpec.unquoted_segment text ++ DelimSpec.scan qs [] (Some e) (Some (c, [c])) [] s else DelimSpec.scan qs [] (Some e) mode (text ++ [c]) s
                     end -> DelimSpec.trail g = []).
    { destruct mode as [[q f]|].
      - destruct (c =? q)%N; [|intros J; revert J Lg; apply IH; auto; lia]. intros [<-|J]; [cbn in Lg; rewrite (M q f eq_refl) in Lg; discriminate|]. revert J Lg. apply IH; [lia|discriminate].
      - destruct (chr_in c (qs ++ [])); [|intros J; revert J Lg; apply IH; auto; lia]. intros J. apply in_app_iff in J. destruct J as [J|J]; [destruct text; cbn in J; [contradiction|destruct J as [<-|[]]; reflexivity]|].
        revert J Lg. apply IH; [lia|]. intros q f [= <- <-]. reflexivity. }
    destruct s as [|d s]; [now apply S|]. destruct (DelimProof2.escaped_pair qs (Some e) c d); [|now apply S]. revert I Lg. apply IH; auto. cbn in L. lia.
Qed.

(** * lines_strip_comments and lines_strip_line_comments, line by line *)
From Verif Require Import LinesModel LinesProof LinesSpec2 SplitProof LinesProof3 DelimProof.
Definition retag (t : str * str * str) : bool * str := let '(lq, text, tq) := t in (negb (is_nil lq), lq ++ text ++ tq).
Section Comments.
  Context (is_bytes : bool) (markers : list str) (NE : nonempty markers).
  Notation keep := (keep_segments is_bytes markers false).
  Definition plain_unquoted (t : str * str * str) : Prop := let '(lq, _, tq) := t in lq = [] -> tq = [].
  Lemma find_keep line segs : Forall plain_unquoted segs -> forall lq tq,
    match find_comment markers line segs [] lq tq with
    | Comment s => exists kept, keep (map retag segs) None = Ok kept /\ concat (map snd (map retag segs)) = kept ++ s /\ s <> []
    | NoComment st _ _ => st = [] /\ keep (map retag segs) None = Ok (concat (map snd (map retag segs)))
    | Broken => False
    end.
  Proof.
    induction 1 as [|[[lq0 text] tq0] segs P F IH]; intros lq tq; cbn [find_comment map]; [split; reflexivity|]. cbn [retag]. unfold plain_unquoted in P. destruct (is_nil lq0) eqn:N; cbn [negb].
    - apply is_nil_iff in N. subst lq0. specialize (P eq_refl). subst tq0. cbn [is_nil negb]. cbn [keep_segments app]. rewrite app_nil_r.
      pose proof (split_once markers NE text) as S. pose proof (re_split1 (separators_re markers true) text) as S1. destruct (re_split (separators_re markers true) (Some 1) text) as [[|[x w] r] y].
      + subst y. specialize (IH [] []). destruct (find_comment markers line segs [] [] []) as [s|st a b|]; [|destruct IH as [-> IH]; split; auto; rewrite IH; reflexivity|contradiction].
        destruct IH as (kept & -> & E & Ns). exists (text ++ kept). cbn [map snd concat rmap]. split; auto. split; auto. now rewrite E, app_assoc.
      + destruct S as (E & I & L). destruct S1 as [_ ->]. exists x. cbn [map snd concat]. split; auto. split.
        * subst text. rewrite <- !app_assoc. f_equal. f_equal. f_equal. clear. induction segs as [|[[a b] c] l IH]; cbn; auto. rewrite IH. unfold joined3. cbn. now rewrite <- !app_assoc.
        * pose proof (nonempty_in _ _ NE I). destruct w; [congruence|discriminate].
    - cbn [keep_segments]. specialize (IH lq0 tq0). destruct (find_comment markers line segs [] lq0 tq0) as [s|st a b|]; [|destruct IH as [-> IH]; split; auto; rewrite IH; reflexivity|contradiction].
      destruct IH as (kept & -> & E & Ns). exists ((lq0 ++ text ++ tq0) ++ kept). cbn [map snd concat rmap]. split; auto. split; auto. now rewrite E, app_assoc.
  Qed.
  Lemma clip_same i (r b : str) : clip_trailing i (r ++ b) (ByStr b) = clip_trailing i (r ++ b) (ByInt (Z.of_nat (length b))) \/ b = [].
  Proof.
    destruct b as [|c b]; [now right|left]. unfold clip_trailing. cbn [clip_count]. destruct (is_nil _); auto.
    assert (slice_from (r ++ c :: b) (- Z.of_nat (length (c :: b))) = c :: b) as ->; auto.
    unfold slice_from. destruct (_ <? _)%Z eqn:E; [|cbn in E; lia]. rewrite app_length. replace (Z.to_nat (Z.of_nat (length r + length (c :: b)) + - Z.of_nat (length (c :: b)))) with (length r) by lia. rewrite skipn_app, Nat.sub_diag, skipn_all. reflexivity.
  Qed.
End Comments.
