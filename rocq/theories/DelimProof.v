(** Proofs about split_quoted_strings. *)
From Verif Require Import DelimModel DelimSpec SplitSpec SplitProof SplitProof2 SplitProof3 SplitProps PyStrProof.

Lemma str_eqb_iff a b : str_eqb a b = true <-> a = b.
Proof. split; [apply str_eqb_eq|intros ->; apply str_eqb_refl]. Qed.
Lemma str_in_iff w l : str_in w l = true <-> In w l.
Proof.
  unfold str_in. rewrite existsb_exists. split.
  - intros (x & I & E). apply str_eqb_iff in E. now subst.
  - intros I. exists w. split; auto. now apply str_eqb_iff.
Qed.
Lemma str_in_false w l : str_in w l = false <-> ~ In w l.
Proof. rewrite <- str_in_iff. destruct (str_in w l); split; congruence. Qed.
Lemma is_nil_iff A (l : list A) : is_nil l = true <-> l = [].
Proof. destruct l; cbn; split; congruence. Qed.
Lemma is_nil_false A (l : list A) : is_nil l = false <-> l <> [].
Proof. destruct l; cbn; split; congruence. Qed.

(** * splitlines *)
Section Lines.
  Context (b : bool).
  Notation lb := (is_linebreak b).
  Lemma lb_crlf : lb 13%N = true /\ lb 10%N = true /\ lb 120%N = false.
  Proof. destruct b; vm_compute; auto. Qed.
  Lemma no_lb_lines s : existsb lb s = false -> forall line, length (splitlines_aux b line s) <= 1.
  Proof.
    induction s as [|c s IH]; intros E line; cbn in *; [destruct line; cbn; lia|].
    apply orb_false_iff in E. destruct E as [E1 E2]. rewrite E1. auto.
  Qed.
  Lemma some_lines s z : lb z = false -> forall line, 1 <= length (splitlines_aux b line (s ++ [z])).
  Proof.
    intros Z. remember (length s) as n. revert s Heqn. induction n as [n IH] using lt_wf_ind. intros s Hn line.
    destruct s as [|c s]; cbn; [rewrite Z; cbn; lia|]. destruct (lb c).
    - destruct (s ++ [z]); [cbn; lia|]. destruct (_ && _); cbn; lia.
    - apply (IH (length s)); auto. subst n. cbn. lia.
  Qed.
  Lemma lb_lines s z : lb z = false -> existsb lb s = true -> forall line, 1 < length (splitlines_aux b line (s ++ [z])).
  Proof.
    intros Z. remember (length s) as n. revert s Heqn. induction n as [n IH] using lt_wf_ind. intros s Hn E line.
    destruct s as [|c s]; [discriminate|]. cbn. cbn in E. destruct (lb c) eqn:C.
    - destruct s as [|d s].
      + cbn. pose proof (some_lines [] z Z []) as L. cbn [app] in L. change (splitlines_aux b [] [z]) with (splitlines_aux b [] ([] ++ [z])) in L.
        destruct ((c =? 13) && (z =? 10))%N eqn:Q.
        * apply andb_true_iff in Q. destruct Q as [_ Q]. apply N.eqb_eq in Q. subst z. destruct lb_crlf as (_ & Q & _). congruence.
        * change (if lb z then [] :: [] else splitlines_aux b [z] []) with (splitlines_aux b [] [z]). cbn [length app] in *. cbn in L. rewrite Z in *. cbn in *. lia.
      + cbn [app]. destruct (_ && _).
        * pose proof (some_lines s z Z []). cbn [length]. lia.
        * pose proof (some_lines (d :: s) z Z []). cbn [length app] in *. lia.
    - cbn in E. apply (IH (length s)); auto. subst n. cbn. lia.
  Qed.
  Lemma contains_newlines_spec s : contains_newlines b s = existsb lb s.
  Proof.
    unfold contains_newlines, splitlines. destruct s as [|c s] using rev_ind; [cbn; now destruct b|]. clear IHs.
    unfold last1. rewrite app_length. cbn [length]. replace (length s + 1 - 1) with (length s) by lia. rewrite skipn_app, Nat.sub_diag, skipn_all. cbn [app skipn].
    rewrite existsb_app. cbn [existsb]. rewrite orb_false_r. destruct lb_crlf as (L1 & L2 & L3).
    destruct (lb c) eqn:C.
    - rewrite orb_true_r. rewrite (proj2 (Nat.ltb_lt 1 (length (splitlines_aux b [] [c; 120%N])))); [apply orb_true_r|].
      apply (lb_lines [c] 120%N); auto. cbn. now rewrite C.
    - rewrite orb_false_r. replace (1 <? length (splitlines_aux b [] [c; 120%N])) with false.
      2:{ symmetry. apply Nat.ltb_ge. apply no_lb_lines. cbn. now rewrite C, L3. }
      rewrite orb_false_r. destruct (existsb lb s) eqn:E.
      + apply Nat.ltb_lt. now apply lb_lines.
      + apply Nat.ltb_ge. apply no_lb_lines. rewrite existsb_app, E. cbn. now rewrite C.
  Qed.
End Lines.

(** * The loop of split_quoted_strings *)
Definition as_pairs (l : list (str * str)) (y : str) : list item := map (fun p => Two (fst p) (snd p)) l ++ [Two y []].
Lemma concat_snoc (b : list str) w : concat (b ++ [w]) = concat b ++ w.
Proof. rewrite concat_app. cbn. now rewrite app_nil_r. Qed.
Lemma is_nil_snoc A (l : list A) x : is_nil (l ++ [x]) = false.
Proof. now destruct l. Qed.
Lemma text_of_app p q : text_of (p ++ q) = text_of p ++ text_of q.
Proof. unfold text_of. now rewrite map_app, concat_app. Qed.
Lemma text_of_txt y : text_of [Txt y] = y.
Proof. apply app_nil_r. Qed.
Section Quoted.
  Context (is_bytes : bool) (all_quotes multiline_quotes : list str).
  Context (NE : forall q, In q all_quotes -> q <> []).
  Definition illegal (g : segment) : bool :=
    negb (is_nil (inside g)) && negb (str_in (inside g) multiline_quotes) && existsb (is_linebreak is_bytes) (body g).
  Notation loop := (quoted_loop is_bytes all_quotes multiline_quotes).
  Notation quote := (fun q => In q all_quotes).
  Lemma illegal_text_eq q t f r : q <> [] -> illegal_text is_bytes multiline_quotes q t = illegal (mkSegment f t r q).
  Proof.
    intros Q. unfold illegal_text, illegal. cbn [inside body]. rewrite contains_newlines_spec. destruct t; cbn [is_nil negb existsb andb]; rewrite ?andb_true_r, ?andb_false_r; reflexivity.
  Qed.
  Lemma deliver_unquoted t out : deliver illegal (unquoted_segment t ++ out) = let '(y, e) := deliver illegal out in ((match t with [] => [] | _ => [([], t, [])] end) ++ y, e).
  Proof. destruct t; cbn [unquoted_segment app deliver]; [now destruct (deliver illegal out)|]. unfold illegal at 1. cbn. reflexivity. Qed.
  Definition all_nonempty (l : list str) : Prop := Forall (fun w : str => w <> []) l.
  Lemma nonempty_concat (b : list str) : all_nonempty b -> (b = [] <-> concat b = []).
  Proof. intros F. destruct F as [|x l Hx]; [tauto|]. cbn. split; [discriminate|]. destruct x; [congruence|discriminate]. Qed.
  Lemma all_nonempty_lit b x : all_nonempty b -> all_nonempty (add_literal b x).
  Proof. intros F. unfold add_literal. destruct x; cbn; auto. apply Forall_app. split; auto. repeat constructor. discriminate. Qed.
  Lemma concat_lit (b : list str) x : concat (add_literal b x) = concat b ++ x.
  Proof. unfold add_literal. destruct x; cbn; [now rewrite app_nil_r|apply concat_snoc]. Qed.
  Lemma no_token_app bad p q : no_token bad p -> no_token bad q -> no_token bad (p ++ q).
  Proof. intros A B w I. apply in_app_or in I. destruct I; [apply A|apply B]; auto. Qed.
  Lemma no_token_txt bad s : no_token bad [Txt s].
  Proof. intros w [I|[]]. discriminate. Qed.
  Lemma no_token_tok (bad : str -> Prop) s : ~ bad s -> no_token bad [Tok s].
  Proof. intros N w [I|[]]. injection I as <-. exact N. Qed.

  Lemma quoted_loop_spec l y : Forall (fun p : str * str => snd p <> []) l -> forall buffer p0, all_nonempty buffer -> concat buffer = text_of p0 ->
    (no_token quote p0 -> exists out, outside quote (p0 ++ pieces l y) out /\ loop (as_pairs l y) buffer [] [] = deliver illegal out) /\
    (forall q state, q <> [] -> (state = [] \/ state = q) -> no_token (eq q) p0 ->
       exists out, inside_of quote (match state with [] => q | _ => [] end) q (p0 ++ pieces l y) out /\ loop (as_pairs l y) buffer q state = deliver illegal out).
  Proof.
    induction 1 as [|[x w] l Hw Fl IH]; intros buffer p0 NB CB.
    - unfold as_pairs, pieces. cbn [map app flat_map quoted_loop]. split.
      + intros NT. exists (unquoted_segment (text_of (p0 ++ [Txt y]))). split; [apply outside_end, no_token_app; auto; apply no_token_txt|].
        cbn [is_nil]. assert (str_in [] all_quotes = false) as -> by (apply str_in_false; intros I; exact (NE _ I eq_refl)). cbn [negb].
        cbv zeta. rewrite is_nil_snoc. rewrite concat_snoc, app_nil_r, concat_lit, CB. rewrite text_of_app, (text_of_txt y).
        rewrite andb_true_r. rewrite <- (app_nil_r (unquoted_segment _)), deliver_unquoted. cbn [deliver]. rewrite app_nil_r.
        destruct (text_of p0 ++ y); reflexivity.
      + intros q state Q S NT. exists [mkSegment (match state with [] => q | _ => [] end) (text_of (p0 ++ [Txt y])) [] q].
        split; [apply inside_end, no_token_app; auto; apply no_token_txt|].
        destruct q as [|q0 q]; [congruence|]. set (Q0 := q0 :: q) in *. change (is_nil Q0) with false. cbn iota.
        replace (str_eqb [] Q0) with false by reflexivity. cbn [negb].
        cbv zeta. rewrite is_nil_snoc. rewrite concat_snoc, app_nil_r, concat_lit, CB. rewrite text_of_app, (text_of_txt y).
        rewrite andb_false_r. cbn [deliver]. rewrite <- (illegal_text_eq Q0 (text_of p0 ++ y)) by exact Q. cbn [lead body trail].
        destruct (illegal_text _ _ _ _); [reflexivity|]. destruct S as [-> | ->]; reflexivity.
    - assert (Epc : forall p, p ++ pieces ((x, w) :: l) y = (p ++ [Txt x]) ++ Tok w :: pieces l y) by (intros; unfold pieces; cbn; now rewrite <- app_assoc).
      assert (Eap : as_pairs ((x, w) :: l) y = Two x w :: as_pairs l y) by reflexivity.
      rewrite Eap. cbn [quoted_loop].
      set (buffer1 := add_literal buffer x).
      assert (NB1 : all_nonempty buffer1) by (now apply all_nonempty_lit).
      assert (CB1 : concat buffer1 = text_of (p0 ++ [Txt x])) by (unfold buffer1; rewrite concat_lit, CB, text_of_app; unfold text_of; cbn; now rewrite app_nil_r).
      assert (NB2 : all_nonempty (buffer1 ++ [w])) by (apply Forall_app; split; auto).
      assert (CB2 : concat (buffer1 ++ [w]) = text_of ((p0 ++ [Txt x]) ++ [Tok w])) by (rewrite concat_snoc, CB1, (text_of_app _ [Tok w]); unfold text_of; cbn; now rewrite !app_nil_r).
      destruct (IH [] [] ltac:(constructor) eq_refl) as [IHo0 IHi0]. destruct (IH _ _ NB2 CB2) as [IHo IHi]. split.
      + intros NT. assert (NT1 : no_token quote (p0 ++ [Txt x])) by (apply no_token_app; auto; apply no_token_txt).
        cbn [is_nil]. destruct (str_in w all_quotes) eqn:I; cbn [negb].
        * apply str_in_iff in I. destruct (IHi0 w [] (NE _ I) (or_introl eq_refl) ltac:(intros ? [])) as (out & Io & Eo).
          exists (unquoted_segment (text_of (p0 ++ [Txt x])) ++ out). rewrite Epc. split; [now apply outside_open|].
          rewrite deliver_unquoted, <- CB1. destruct (nonempty_concat _ NB1) as [Nb1 Nb2].
          destruct (is_nil buffer1) eqn:Z.
          -- apply is_nil_iff in Z. rewrite Z in *. cbn [concat]. rewrite Eo. now destruct (deliver illegal out).
          -- apply is_nil_false in Z. rewrite Eo. destruct (concat buffer1) eqn:C; [exfalso; auto|]. unfold yield_. now destruct (deliver illegal out).
        * apply str_in_false in I. destruct IHo as (out & Oo & Eo); [apply no_token_app; auto; now apply no_token_tok|].
          exists out. rewrite Epc. split; auto. rewrite <- app_assoc in Oo. exact Oo.
      + intros q state Q S NT. assert (NT1 : no_token (eq q) (p0 ++ [Txt x])) by (apply no_token_app; auto; apply no_token_txt).
        destruct (is_nil q) eqn:Zq; [apply is_nil_iff in Zq; congruence|].
        destruct (str_eqb w q) eqn:E; cbn [negb].
        * apply str_eqb_eq in E. subst w. destruct (IHo0 ltac:(intros ? [])) as (out & Oo & Eo).
          eexists. rewrite Epc. split; [apply inside_close; [exact NT1|exact Oo]|]. cbn [deliver].
          rewrite <- CB1, <- illegal_text_eq by exact Q. destruct (illegal_text _ _ _ _); [reflexivity|]. cbn [lead body trail].
          destruct S as [-> | ->]; [cbn [is_nil]|rewrite Zq]; rewrite Eo; unfold yield_; destruct (deliver illegal out); [reflexivity|].
          destruct q; [congruence|reflexivity].
        * assert (N : q <> w) by (intros ->; now rewrite str_eqb_refl in E).
          destruct (IHi q state Q S) as (out & Oo & Eo); [apply no_token_app; auto; now apply no_token_tok|].
          exists out. rewrite Epc. split; auto. rewrite <- app_assoc in Oo. exact Oo.
  Qed.

End Quoted.
