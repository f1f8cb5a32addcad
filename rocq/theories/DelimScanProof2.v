(** split_delimiters is the scanner of DelimScanSpec.v: the loops. *)
From Verif Require Import DelimModel DelimSpec SplitSpec SplitProof SplitProof2 SplitProof3 SplitProps PyStrProof DelimProof DelimProof2 DelimProof3 DelimProof4 DelimProof5 DelimScanSpec DelimScanProof.

Section Table.
  Context (is_bytes : bool) (table : delimiters) (OK : table_ok table).
  Notation lb := (is_linebreak is_bytes).
  Notation tokens := (all_tokens is_bytes table).
  Notation token_at := (token_at lb table).
  Notation decide := (decide lb table).
  Notation scan := (scan_any lb table).
  Notation loop := (delimiter_loop is_bytes table).

  Fixpoint rep (st : list delimiter) : option delimiter * list (option delimiter) :=
    match st with [] => (None, []) | d :: b => (Some d, fst (rep b) :: snd (rep b)) end.
  Lemma rep_fst st : fst (rep st) = hd_error st. Proof. now destruct st. Qed.
  Definition known (st : list delimiter) : Prop := Forall (fun d => exists k, In (k, d) table) st.
  Lemma known_in st : known st -> in_table table (hd_error st).
  Proof. intros [|d l H _]; cbn; auto. Qed.

  Lemma skipn_more (s x r : str) p : skipn p s = x ++ r -> skipn (p + length x) s = r.
  Proof. intros E. rewrite <- skipn_plus, E. rewrite skipn_app, skipn_all2, Nat.sub_diag by auto. reflexivity. Qed.
  Lemma skipn_first (s r : str) p c : skipn p s = c :: r -> nth_error s p = Some c.
  Proof. revert s. induction p as [|p IH]; intros [|d s] E; cbn in E |- *; try discriminate; [congruence|auto]. Qed.

  Lemma scan_chars s st ys e : forall x p lag t esc r, skipn p s = x ++ r -> (forall i, i < length x -> ~ sep_at tokens (x ++ r) i) -> (x = [] -> esc = false) ->
    scan s (p + length x, lag) st (t ++ x) false ys e -> scan s (p, lag) st t esc ys e.
  Proof.
    induction x as [|c x IH]; intros p lag t esc r E F Z H.
    - cbn [length] in H. rewrite Nat.add_0_r, app_nil_r in H. rewrite Z; auto.
    - assert (E1 : skipn (p + 1) s = x ++ r) by (apply (skipn_more s [c] (x ++ r) p); exact E).
      apply any_character with c; cbn [fst].
      + eapply skipn_first. exact E.
      + rewrite E. intros w T. apply (F 0); [cbn; lia|]. destruct T as (T & (t' & Et) & _). exists w, t'. split; [now apply (is_token_in is_bytes table) in T|exact Et].
      + cbn [read]. apply IH with r; auto.
        * intros i L Sa. apply (F (S i)); [cbn; lia|]. destruct Sa as (w & t' & I & Es). exists w, t'. split; auto.
        * rewrite <- app_assoc. cbn [length app] in H |- *. replace (p + 1 + length x) with (p + S (length x)) by lia. exact H.
  Qed.

  Definition wf (buffer : list str) (escaped : str) : Prop := escaped <> [] -> buffer <> [].
  Definition on (escaped : str) : bool := negb (is_nil escaped).
  Definition good (s : str) (p lag : nat) (st : list delimiter) (buffer : list str) (escaped : str) (ys : list triple) (res : outcome) : Prop :=
    match res with
    | Finished b e => wf b e /\ scan s (p, lag) st (concat buffer) (on escaped) (ys ++ if on e then [] else final_text (concat b)) (if on e then Some SyntaxError else None)
    | Raised e => e = SyntaxError -> scan s (p, lag) st (concat buffer) (on escaped) ys (Some e)
    | Resplit c st' b e n => exists st2, (c, st') = rep st2 /\ known st2 /\ wf b e /\ n <= length s /\
        forall ys' e', scan s (n, 0) st2 (concat b) (on e) ys' e' -> scan s (p, lag) st (concat buffer) (on escaped) (ys ++ ys') e'
    end.
  (** one step of the scanner in front of what the loop does from there *)
  Lemma good_step s p lag st buffer escaped p' lag' st' buffer' escaped' pre ys res :
    (forall y e, scan s (p', lag') st' (concat buffer') (on escaped') y e -> scan s (p, lag) st (concat buffer) (on escaped) (pre ++ y) e) ->
    good s p' lag' st' buffer' escaped' ys res -> good s p lag st buffer escaped (pre ++ ys) res.
  Proof.
    intros H G. destruct res as [b e|e|c st0 b e n]; cbn [good] in *.
    - destruct G as [W G]. split; auto. rewrite <- app_assoc. auto.
    - auto.
    - destruct G as (st2 & R & K & W & L & G). exists st2. repeat split; auto. intros ys' e' Sc. rewrite <- app_assoc. auto.
  Qed.
  Lemma rep_app d st : rep (d :: st) = (Some d, fst (rep st) :: snd (rep st)). Proof. reflexivity. Qed.
  Lemma app_neq_nil A (l : list A) a : l ++ [a] <> []. Proof. destruct l; discriminate. Qed.

  Lemma loop_scan s n r l y : splits true tokens n r l y -> n = None -> forall p st buffer escaped consumed ys res, r = skipn p s -> p <= length s -> known st -> consumed <= p -> wf buffer escaped ->
    loop (as_pairs l y) (fst (rep st)) (snd (rep st)) buffer escaped consumed = (ys, res) -> good s p (p - consumed) st buffer escaped ys res.
  Proof.
    induction 1 as [r|n r Fr|n x w t l y Nn Fx One Sp IH]; intros En; [discriminate|subst n|subst n]; intros p st buffer escaped consumed ys res Er Lp Kn Lc Wf E.
    - (* no more tokens *)
      unfold as_pairs in E. cbn [map app delimiter_loop is_nil negb andb] in E. rewrite andb_true_r in E. destruct (is_nil r) eqn:Nr.
      + apply is_nil_iff in Nr. rewrite Nr in Er. injection E as <- <-. cbn [good app]. split; auto. apply any_end. cbn [fst].
        assert (length (skipn p s) = 0) as Z by (rewrite <- Er; reflexivity). rewrite skipn_length in Z. lia.
      + rewrite andb_false_r in E. injection E as <- <-. cbn [good app on is_nil negb]. split; [intros Q; congruence|].
        apply scan_chars with (x := r) (r := []).
        * rewrite app_nil_r. auto.
        * rewrite app_nil_r. intros i _ S. exact (Fr i S).
        * intros ->. discriminate.
        * rewrite <- concat_snoc. apply (any_end lb table s (p + length r, p - consumed) st (concat (buffer ++ [r])) false). cbn [fst]. rewrite Er, skipn_length. lia.
    - (* x, and then the token w *)
      cbn [one_split] in One. apply (longest_token is_bytes table) in One. cbn [option_map] in IH. specialize (IH eq_refl).
      assert (Ew : skipn (p + length x) s = w ++ t) by (apply skipn_more; auto).
      assert (Et : t = skipn (p + length x + length w) s) by (symmetry; apply skipn_more; auto).
      assert (Lw : p + length x + length w <= length s).
      { assert (length (skipn p s) = length (x ++ w ++ t)) as Q by now rewrite Er. rewrite skipn_length, !app_length in Q. lia. }
      assert (Tok : token_at (skipn (fst (p + length x, p - consumed)) s) w) by (cbn [fst]; rewrite Ew; exact One).
      assert (Iw : In w tokens) by (apply (is_token_in is_bytes table); apply One).
      assert (Nw : w <> []) by (apply (token_nonempty is_bytes table OK); apply One).
      assert (Zw : is_nil w = false) by (now apply is_nil_false).
      assert (Eap : as_pairs ((x, w) :: l) y = Two x w :: as_pairs l y) by reflexivity. rewrite Eap in E. cbn [delimiter_loop] in E. rewrite Zw, andb_false_r in E.
      pose proof (known_in st Kn) as IT.
      destruct (negb (is_nil escaped) && is_nil x) eqn:Esc.
      + apply andb_true_iff in Esc as [Oe Ex]. apply is_nil_iff in Ex. subst x. cbn [length] in *. rewrite Nat.add_0_r in *.
        destruct w as [|c w']; [congruence|]. destruct (length (c :: w') =? 1) eqn:L1.
        * apply Nat.eqb_eq in L1. destruct w' as [|? ?]; [|discriminate]. cbn [length] in *. change ys with ([] ++ ys).
          apply good_step with (p' := p + 1) (lag' := p - consumed) (st' := st) (buffer' := buffer ++ [[c]]) (escaped' := []).
          -- intros y0 e0 H. unfold on at 1. rewrite Oe. cbn [app]. apply any_escaped with (c := c) (w := []); auto. cbn [read is_nil]. rewrite concat_snoc in H. exact H.
          -- replace (p - consumed) with (p + 1 - (consumed + 1)) by lia. eapply IH; [exact Et|lia|exact Kn|lia|intros Q; congruence|exact E].
        * injection E as <- <-. cbn [good]. exists st. split; [destruct st; reflexivity|]. split; auto. split; [intros Q; congruence|]. split; [cbn [length] in Lw; lia|].
          intros ys' e' H. cbn [app]. unfold on at 1. rewrite Oe. apply any_escaped with (c := c) (w := w'); auto. cbn [read].
          assert (is_nil w' = false) as -> by (destruct w'; [discriminate|reflexivity]). rewrite concat_snoc in H. cbn [firstn] in H. replace (p + 1 - (p - consumed)) with (consumed + 1) by lia. exact H.
      + assert (Pre : forall pre st' p' lag' b' e', (forall y0 e0, scan s (p', lag') st' (concat b') (on e') y0 e0 -> scan s (p + length x, p - consumed) st (concat (buffer ++ [x])) false (pre ++ y0) e0) ->
                 forall y0 e0, scan s (p', lag') st' (concat b') (on e') y0 e0 -> scan s (p, p - consumed) st (concat buffer) (on escaped) (pre ++ y0) e0).
        { intros pre st' p' lag' b' e' H y0 e0 K. apply H in K. rewrite concat_snoc in K. apply (scan_chars s st (pre ++ y0) e0 x p (p - consumed) (concat buffer) (on escaped) (w ++ t)); auto.
          intros ->. unfold on. cbn [is_nil] in Esc. now rewrite andb_true_r in Esc. }
        cbv zeta in E. pose proof (lookup_means is_bytes table OK (hd_error st) w IT Iw) as M. rewrite rep_fst in E.
        destruct (decide (hd_error st) w) as [d|x0|x0| | |] eqn:D; cbn [means] in M.
        * (* opening *)
          rewrite M in E. destruct (loop (as_pairs l y) (Some d) _ _ _ _) as [y' r'] eqn:E'. injection E as <- <-.
          change ((concat (buffer ++ [x]), w, []) :: y') with ([(concat (buffer ++ [x]), w, [])] ++ y').
          apply good_step with (p' := p + length x + length w) (lag' := p - consumed) (st' := d :: st) (buffer' := []) (escaped' := []).
          -- apply Pre. intros y0 e0 H. cbn [app]. apply any_open with d; auto.
          -- replace (p - consumed) with (p + length x + length w - (consumed + length x + length w)) by lia. eapply IH; eauto; try lia.
             ++ constructor; auto. exists w. eapply decide_opens. exact D.
             ++ intros Q; congruence.
             ++ rewrite rep_app. cbn [fst snd]. rewrite rep_fst. exact E'.
        * (* closing *)
          destruct (decide_closes is_bytes table OK _ _ _ IT D) as (d & Es & Ex & Lx & rw & Erw). destruct st as [|d' st]; [discriminate|]. cbn [hd_error] in Es. injection Es as ->.
          cbn [rep snd] in E. assert (Lxw : length x0 <= length w) by (rewrite Erw, app_length; lia).
          pose proof (Forall_inv_tail Kn) as Kn'.
          destruct (str_eqb x0 w) eqn:Q.
          -- apply str_eqb_iff in Q. subst x0. rewrite M in E. destruct (loop (as_pairs l y) (fst (rep st)) _ _ _ _) as [y' r'] eqn:E'. injection E as <- <-.
             change ((concat (buffer ++ [x]), [], w) :: y') with ([(concat (buffer ++ [x]), [], w)] ++ y').
             apply good_step with (p' := p + length x + length w) (lag' := p - consumed) (st' := st) (buffer' := []) (escaped' := []).
             ++ apply Pre. intros y0 e0 H. cbn [app]. apply any_close with (w := w); auto. cbn [read]. rewrite str_eqb_refl. exact H.
             ++ replace (p - consumed) with (p + length x + length w - (consumed + length x + length w)) by lia. eapply IH; eauto; try lia. intros Q; congruence.
          -- rewrite M in E. cbv beta iota in E. rewrite Lx in E. injection E as <- <-. cbn [good]. exists st. split; [destruct st; reflexivity|]. split; auto. split; [intros Q'; congruence|]. split; [lia|].
             intros ys' e' H. revert ys' e' H. apply (Pre [(concat (buffer ++ [x]), [], x0)] st (consumed + length x + length x0) 0 [] []). intros y0 e0 H. cbn [app]. apply any_close with (w := w); auto. cbn [read]. rewrite Q.
             replace (p + length x + length x0 - (p - consumed)) with (consumed + length x + length x0) by lia. exact H.
        * (* escape *)
          destruct (decide_escapes is_bytes table OK _ _ _ IT D) as (Lx & Nx & rw & Erw). assert (Lxw : length x0 <= length w) by (rewrite Erw, app_length; lia).
          assert (On : on x0 = true) by (unfold on; now rewrite (proj2 (is_nil_false _ x0) Nx)).
          destruct (str_eqb x0 w) eqn:Q.
          -- apply str_eqb_iff in Q. subst x0. rewrite M in E. change ys with ([] ++ ys).
             apply good_step with (p' := p + length x + length w) (lag' := p - consumed) (st' := st) (buffer' := (buffer ++ [x]) ++ [w]) (escaped' := w).
             ++ apply Pre. intros y0 e0 H. cbn [app]. rewrite On in H. apply any_escape with (w := w) (x := w); auto. cbn [read]. rewrite str_eqb_refl, <- concat_snoc. exact H.
             ++ replace (p - consumed) with (p + length x + length w - (consumed + length x + length w)) by lia. eapply IH; eauto; try lia; [|rewrite rep_fst; exact E]. intros _. apply app_neq_nil.
          -- rewrite M in E. cbv beta iota in E. rewrite Lx in E. injection E as <- <-. cbn [good]. exists st. split; [rewrite <- rep_fst; destruct (rep st); reflexivity|]. split; auto. split; [intros _; apply app_neq_nil|]. split; [lia|].
             intros ys' e' H. revert ys' e' H. apply (Pre [] st (consumed + length x + length x0) 0 ((buffer ++ [x]) ++ [x0]) x0). intros y0 e0 H. cbn [app]. rewrite On in H. apply any_escape with (w := w) (x := x0); auto. cbn [read]. rewrite Q, <- concat_snoc.
             replace (p + length x + length x0 - (p - consumed)) with (consumed + length x + length x0) by lia. exact H.
        * (* its first character *)
          rewrite M in E. injection E as <- <-. cbn [good]. exists st. split; [rewrite <- rep_fst; destruct (rep st); reflexivity|]. split; auto. split; [intros Q; congruence|].
          destruct w as [|c w']; [congruence|]. split; [cbn [length] in Lw; lia|].
          intros ys' e' H. revert ys' e' H. apply (Pre [] st (consumed + length x + 1) 0 ((buffer ++ [x]) ++ [firstn 1 (c :: w')]) []). intros y0 e0 H. cbn [app]. apply any_pass_one with (c := c) (w := w'); auto. cbn [read].
          rewrite (concat_snoc (buffer ++ [x])) in H. cbn [firstn] in H.
          replace (p + length x + 1 - (p - consumed)) with (consumed + length x + 1) by lia. exact H.
        * (* text *)
          rewrite M in E. change ys with ([] ++ ys).
          apply good_step with (p' := p + length x + length w) (lag' := p - consumed + length w) (st' := st) (buffer' := (buffer ++ [x]) ++ [w]) (escaped' := []).
          -- apply Pre. intros y0 e0 H. cbn [app]. apply any_pass_over with (w := w); auto. cbn [passed]. rewrite <- concat_snoc. exact H.
          -- replace (p - consumed + length w) with (p + length x + length w - (consumed + length x)) by lia. eapply IH; eauto; try lia; [|rewrite rep_fst; exact E]. intros Q; congruence.
        * (* wrong *)
          assert (E2 : ys = [] /\ res = Raised SyntaxError) by (destruct M as [M|M]; rewrite M in E; injection E as <- <-; auto). destruct E2 as [-> ->]. cbn [good]. intros _.
          assert (H : scan s (p + length x, p - consumed) st (concat (buffer ++ [x])) false [] (Some SyntaxError)) by (apply any_wrong with (w := w); auto).
          rewrite concat_snoc in H. apply (scan_chars s st [] (Some SyntaxError) x p (p - consumed) (concat buffer) (on escaped) (w ++ t)); auto. intros ->. unfold on. cbn [is_nil] in Esc. now rewrite andb_true_r in Esc.
  Qed.
End Table.
