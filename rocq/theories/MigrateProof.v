(** parse_delimiters (big.deprecated) and the scanner of split_delimiters, step by step. *)
From Verif Require Import PyStr PyBase PyStrProof DeprModel MigrateSpec.
From Verif Require DelimModel DelimSpec DelimProof5.
Notation scan1 := DelimSpec.scan1.
Notation opens := DelimSpec.opens.
Notation reserved := DelimSpec.reserved.

Definition d1 (p : pair) : DelimSpec.delimiter1 := if p_quote p then DelimSpec.Quote (p_close p) 92%N (p_multiline p) else DelimSpec.Nest (p_close p).
Definition t1 (ps : list pair) : list (chr * DelimSpec.delimiter1) := map (fun p => (p_open p, d1 p)) ps.
Lemma new_table ps : map new_delimiter ps = DelimProof5.table_of (t1 ps).
Proof. unfold DelimProof5.table_of, t1. rewrite map_map. apply map_ext. intros [o c [|] m]; reflexivity. Qed.

Definition top (st : list pair) : option pair := match st with p :: _ => if p_quote p then Some p else None | [] => None end.
Definition old_top (st : list pair) : option delim := match st with [] => None | p :: _ => Some (old_delimiter p) end.
Fixpoint old_stack (st : list pair) : list (option delim) := match st with [] => [] | _ :: st => old_top st :: old_stack st end.
Definition fin (text : str) : list triple := match text with [] => [] | _ => [(text, [], [])] end.
Fixpoint esc_after (e : bool) (t : str) : bool := match t with [] => e | c :: t => if e then esc_after false t else esc_after (c =? 92)%N t end.
Lemma esc_after_app a b : forall e, esc_after e (a ++ b) = esc_after (esc_after e a) b.
Proof. induction a as [|c a IH]; intros e; cbn; auto. destruct e; auto. Qed.
Lemma bare_break_app lb a b : forall e, bare_break lb e (a ++ b) = bare_break lb e a || bare_break lb (esc_after e a) b.
Proof.
  induction a as [|c a IH]; intros e; cbn; auto. destruct e; auto. destruct (c =? 92)%N; auto. rewrite IH. now destruct (lb c).
Qed.

Section Sim.
  Context (ps : list pair) (lb : chr -> bool) (OK : pairs_ok ps).
  Notation ds := (map old_delimiter ps).
  Notation text_ok := (text_ok ps lb).
  Inductive R : list pair -> generated triple -> generated triple -> Prop :=
  | R_done text : text_ok None text -> R [] (fin text, None) (fin text, None)
  | R_open p st text : R (p :: st) ([], Some ValueError) (fin text, None)
  | R_error st : R st ([], Some ValueError) ([], Some SyntaxError)
  | R_stop st lo eo : (eo = None -> exists t o c l, lo = (t, o, c) :: l /\ ~ text_ok (top st) t) -> R st (lo, eo) ([], Some SyntaxError)
  | R_push p st text lo eo ln en : In p ps -> top st = None -> text_ok None text -> R (p :: st) (lo, eo) (ln, en) ->
      R st ((text, [p_open p], []) :: lo, eo) ((text, [p_open p], []) :: ln, en)
  | R_pop p st text lo eo ln en : In p ps -> top st = None -> text_ok (top (p :: st)) text -> R st (lo, eo) (ln, en) ->
      R (p :: st) ((text, [], [p_close p]) :: lo, eo) ((text, [], [p_close p]) :: ln, en).

  Lemma opens_find c : opens (t1 ps) c = option_map d1 (find (fun p => (p_open p =? c)%N) ps).
  Proof. unfold t1. clear OK. induction ps as [|p l IH]; cbn; auto. destruct (p_open p =? c)%N; auto. Qed.
  Lemma find_rev_nodup (f : delim -> bool) : forall l : list delim, (forall x y, In x l -> In y l -> f x = true -> f y = true -> x = y) -> find f (rev l) = find f l.
  Proof.
    intros l H. destruct (find f (rev l)) as [x|] eqn:E.
    - apply find_some in E. destruct E as [I F]. apply in_rev in I. destruct (find f l) as [y|] eqn:E2.
      + apply find_some in E2. destruct E2 as [J G]. f_equal. auto.
      + apply (find_none f l E2) in I. congruence.
    - destruct (find f l) as [y|] eqn:E2; auto. apply find_some in E2. destruct E2 as [J G]. apply in_rev in J. apply (find_none f (rev l) E) in J. congruence.
  Qed.
  Lemma nodup_open p p' : In p ps -> In p' ps -> p_open p = p_open p' -> p = p'.
  Proof.
    destruct OK as (_ & ND & _). clear OK. induction ps as [|q l IH]; intros I J E; [contradiction|]. cbn in ND. inversion ND; subst. destruct I as [->|I], J as [->|J]; auto.
    - exfalso. apply H1. rewrite E. now apply in_map.
    - exfalso. apply H1. rewrite <- E. now apply in_map.
  Qed.
  Lemma one_eqb (a b : chr) : str_eqb [a] [b] = (a =? b)%N.
  Proof. cbn. now rewrite andb_true_r. Qed.
  Lemma opener_find c : opener ds c = option_map old_delimiter (find (fun p => (p_open p =? c)%N) ps).
  Proof.
    unfold opener. rewrite find_rev_nodup.
    - clear OK. induction ps as [|p l IH]; auto. cbn [map find]. unfold old_delimiter at 1. cbn [d_open]. rewrite one_eqb. destruct (p_open p =? c)%N; auto.
    - intros x y I J F G. apply in_map_iff in I, J. destruct I as (p & <- & I), J as (p' & <- & J). cbn [d_open old_delimiter] in F, G. rewrite one_eqb in F, G. apply N.eqb_eq in F, G. f_equal. apply nodup_open; auto. congruence.
  Qed.
  Lemma closers_in c : existsb (str_eqb [c]) (closers_of ds) = true <-> exists p, In p ps /\ p_close p = c /\ p_close p <> p_open p.
  Proof.
    rewrite existsb_exists. unfold closers_of. split.
    - intros (w & I & E). apply str_eqb_eq in E. subst w. apply in_map_iff in I. destruct I as (d & E & I). apply filter_In in I. destruct I as [I F]. apply in_map_iff in I. destruct I as (p & <- & I).
      cbn [old_delimiter d_close d_open] in *. rewrite one_eqb in F. apply negb_true_iff, N.eqb_neq in F. injection E as E. eauto.
    - intros (p & I & E & N). exists [c]. split; [|now apply str_eqb_eq]. apply in_map_iff. exists (old_delimiter p). split; [cbn; now rewrite E|]. apply filter_In. split; [now apply in_map|].
      cbn [old_delimiter d_close d_open]. rewrite one_eqb. now apply negb_true_iff, N.eqb_neq.
  Qed.
  Lemma reserved_in c : reserved (t1 ps) c = true <-> (exists p, In p ps /\ p_close p = c) \/ (c = 92%N /\ exists p, In p ps /\ p_quote p = true).
  Proof.
    unfold reserved. rewrite existsb_exists. split.
    - intros ([k d] & I & E). unfold t1 in I. apply in_map_iff in I. destruct I as (p & Q & I). injection Q as <- <-. cbn [snd] in E. unfold d1 in E. destruct (p_quote p) eqn:Qp.
      + apply orb_true_iff in E. rewrite !N.eqb_eq in E. destruct E as [E|E]; [left; eauto|right; split; eauto].
      + apply N.eqb_eq in E. left. eauto.
    - intros [(p & I & E)|(-> & p & I & E)]; exists (p_open p, d1 p); (split; [unfold t1; apply in_map_iff; eauto|]); cbn [snd]; unfold d1.
      + destruct (p_quote p); rewrite E, N.eqb_refl; auto.
      + rewrite E, N.eqb_refl. apply orb_true_r.
  Qed.
  Lemma loop_first s : forall text d stack q lo, text <> [] -> parse_loop ds (closers_of ds) s text d stack q = (lo, None) -> exists w o c l, lo = (text ++ w, o, c) :: l.
  Proof.
    induction s as [|c s IH]; intros text d stack q lo N E; cbn [parse_loop] in E.
    - destruct stack; [|discriminate]. destruct text; [congruence|]. injection E as <-. exists []. rewrite app_nil_r. eauto.
    - assert (Go : forall d stack q, parse_loop ds (closers_of ds) s (text ++ [c]) d stack q = (lo, None) -> exists w o c l, lo = (text ++ w, o, c) :: l).
      { intros d' k' q' H. apply IH in H; [|now destruct text]. destruct H as (w & o & c' & l & ->). rewrite <- app_assoc. eauto. }
      assert (Y : forall o c0 g, yield_ (text, o, c0) g = (lo, None) -> exists w o c l, lo = (text ++ w, o, c) :: l).
      { intros o c0 [y e] H. injection H as <- ->. exists []. rewrite app_nil_r. eauto. }
      destruct q; [eauto|]. destruct (is_close d c); [eauto|]. destruct (cur_nested d && _); [discriminate|].
      destruct (if cur_nested d then opener ds c else None); eauto.
  Qed.
  (** a bad text stays bad *)
  Lemma text_ok_app q a b : text_ok q (a ++ b) -> text_ok q a.
  Proof.
    destruct q as [p|]; cbn.
    - intros [H|H]; auto. right. rewrite bare_break_app in H. now apply orb_false_iff in H.
    - intros H E I. apply (H E). apply in_app_iff. auto.
  Qed.
  Definition flag_ok (st : list pair) (text : str) (q : bool) : Prop := match top st with Some _ => q = esc_after false text | None => q = false end.
  Lemma push_R p st text o n : In p ps -> top st = None -> text_ok None text -> R (p :: st) o n ->
    R st (yield_ (text, [p_open p], []) o) (let '(l, e) := n in ((text, [p_open p], []) :: l, e)).
  Proof. destruct o, n. intros. now apply R_push. Qed.
  Lemma pop_R p st text o n : In p ps -> top st = None -> text_ok (top (p :: st)) text -> R st o n ->
    R (p :: st) (yield_ (text, [], [p_close p]) o) (let '(l, e) := n in ((text, [], [p_close p]) :: l, e)).
  Proof. destruct o, n. intros. now apply R_pop. Qed.

  Lemma sim s : forall st text q, (forall p, In p st -> In p ps) -> (forall p, In p (tl st) -> p_quote p = false) ->
    text_ok (top st) text -> flag_ok st text q ->
    R st (parse_loop ds (closers_of ds) s text (old_top st) (old_stack st) q) (scan1 (t1 ps) lb (map d1 st) text q s).
  Proof.
    induction s as [|c s IH]; intros st text q Sub NQ T F; cbn [parse_loop DelimSpec.scan1].
    - destruct st as [|p st].
      + cbn in F. subst q. cbn. destruct text; exact (R_done _ T).
      + cbn [old_stack]. destruct q; [constructor|]. destruct text as [|a text]; [exact (R_open p st [])|exact (R_open p st (a :: text))].
    - assert (Stop : forall d stack q', ~ text_ok (top st) (text ++ [c]) -> R st (parse_loop ds (closers_of ds) s (text ++ [c]) d stack q') ([], Some SyntaxError)).
      { intros d k q' B. destruct (parse_loop ds (closers_of ds) s (text ++ [c]) d k q') as [lo eo] eqn:E. constructor. intros ->.
        apply loop_first in E; [|now destruct text]. destruct E as (w & o & c' & l & ->). do 4 eexists. split; eauto. intros H. apply B. eapply text_ok_app; eauto. }
      assert (TN : top (tl st) = None) by (destruct st as [|p0 [|p1 st]]; auto; cbn; now rewrite (NQ p1 (or_introl eq_refl))).
      assert (Sub' : forall p, In p (tl st) -> In p ps) by (intros p I; apply Sub; destruct st; [contradiction|now right]).
      assert (NQ' : forall p, In p (tl (tl st)) -> p_quote p = false) by (intros p I; apply NQ; destruct st as [|? [|]]; cbn in *; auto; contradiction).
      assert (T0 : text_ok None []) by (intros _ []).
      destruct (top st) as [p|] eqn:Tp.
      + (* inside quotes *)
        destruct st as [|p' st]; [discriminate|]. cbn [top] in Tp. destruct (p_quote p') eqn:Q; [|discriminate]. injection Tp as ->.
        assert (Ip : In p ps) by (apply Sub; now left). unfold flag_ok in F. cbn [top] in F. rewrite Q in F. cbn [map tl] in *.
        assert (Keep : forall q', q' = esc_after false (text ++ [c]) -> text_ok (Some p) (text ++ [c]) ->
          R (p :: st) (parse_loop ds (closers_of ds) s (text ++ [c]) (old_top (p :: st)) (old_stack (p :: st)) q') (scan1 (t1 ps) lb (map d1 (p :: st)) (text ++ [c]) q' s)).
        { intros q' Eq T'. apply IH; auto; unfold flag_ok; cbn [top]; rewrite Q; auto. }
        cbn [old_stack map] in *. destruct q.
        * apply Keep; [rewrite esc_after_app, <- F; reflexivity|]. destruct T as [T|T]; [now left|right]. rewrite bare_break_app, T, <- F. reflexivity.
        * cbn [old_top is_close cur_nested cur_backslash]. unfold d1 at 1. rewrite Q. cbn [old_delimiter d_close d_backslash d_nested]. rewrite Q. cbn [negb andb]. rewrite one_eqb. unfold backslash_chr.
          assert (C92 : p_close p <> 92%N) by now apply OK.
          destruct (c =? 92)%N eqn:E92.
          { apply N.eqb_eq in E92. subst c. assert ((92 =? p_close p)%N = false) as -> by (apply N.eqb_neq; congruence).
            apply Keep; [rewrite esc_after_app, <- F; reflexivity|]. destruct T as [T|T]; [now left|right]. rewrite bare_break_app, T, <- F. reflexivity. }
          destruct (c =? p_close p)%N eqn:Ec.
          { apply N.eqb_eq in Ec. subst c. apply pop_R; auto; [cbn [top]; now rewrite Q|]. apply IH; auto; unfold flag_ok; rewrite TN; auto. }
          destruct (negb (p_multiline p) && lb c) eqn:EL.
          { apply andb_true_iff in EL. destruct EL as [L1 L2]. apply negb_true_iff in L1. apply Stop. intros [H|H]; [congruence|]. rewrite bare_break_app in H. apply orb_false_iff in H. destruct H as [_ H].
            rewrite <- F in H. cbn in H. rewrite E92, L2 in H. discriminate. }
          apply Keep; [rewrite esc_after_app, <- F; cbn; now rewrite E92|]. destruct T as [T|T]; [now left|]. destruct (p_multiline p) eqn:M; [now left|right].
          rewrite bare_break_app, T, <- F. cbn. rewrite E92. cbn in EL. now rewrite EL.
      + (* outside *)
        unfold flag_ok in F. rewrite Tp in F. subst q.
        assert (Nest : forall p st', st = p :: st' -> p_quote p = false) by (intros p st' ->; cbn in Tp; destruct (p_quote p); [discriminate|reflexivity]).
        assert (CN : cur_nested (old_top st) = true) by (destruct st as [|p st']; auto; cbn; now rewrite (Nest p st' eq_refl)).
        assert (CB : cur_backslash (old_top st) = false) by (destruct st as [|p st']; auto; cbn; now rewrite (Nest p st' eq_refl)).
        rewrite CN, CB. cbn [andb].
        (* what the new one does *)
        set (out := match opens (t1 ps) c with
                    | Some d => let '(l, e) := scan1 (t1 ps) lb (d :: map d1 st) [] false s in ((text, [c], []) :: l, e)
                    | None => if match st with p :: _ => (c =? p_close p)%N | [] => false end
                              then let '(l, e) := scan1 (t1 ps) lb (map d1 (tl st)) [] false s in ((text, [], [c]) :: l, e)
                              else if reserved (t1 ps) c then ([], Some SyntaxError) else scan1 (t1 ps) lb (map d1 st) (text ++ [c]) false s
                    end).
        match goal with |- R _ _ ?n => assert (En : n = out) end.
        { unfold out. destruct st as [|p st']; cbn [map tl].
          - reflexivity.
          - unfold d1 at 1. rewrite (Nest p st' eq_refl). reflexivity. }
        rewrite En. clear En. unfold out. clear out. rewrite opens_find, opener_find.
        assert (EC : is_close (old_top st) c = match st with p :: _ => (c =? p_close p)%N | [] => false end) by (destruct st as [|p st']; auto; cbn [old_top is_close old_delimiter d_close]; apply one_eqb).
        rewrite EC. destruct (match st with p :: _ => (c =? p_close p)%N | [] => false end) eqn:Cl.
        { (* closing *)
          destruct st as [|p st]; [discriminate|]. apply N.eqb_eq in Cl. subst c. cbn [tl] in *. assert (Ip : In p ps) by (apply Sub; now left).
          destruct (find (fun p0 => (p_open p0 =? p_close p)%N) ps) as [p'|] eqn:Ef.
          - apply find_some in Ef. destruct Ef as [I' E']. apply N.eqb_eq in E'. destruct OK as (_ & _ & _ & D). destruct (D p p' Ip I' (eq_sym E')) as [_ H]. rewrite (Nest p st eq_refl) in H. discriminate.
          - cbn [option_map old_stack]. apply pop_R; auto; [cbn [top]; now rewrite (Nest p st eq_refl)|]. apply IH; auto; unfold flag_ok; rewrite TN; auto. }
        destruct (existsb (str_eqb [c]) (closers_of ds)) eqn:Ex.
        { (* a closing delimiter that does not match *)
          apply closers_in in Ex. destruct Ex as (p & I & <- & N). destruct (find (fun p0 => (p_open p0 =? p_close p)%N) ps) as [p'|] eqn:Ef.
          - apply find_some in Ef. destruct Ef as [I' E']. apply N.eqb_eq in E'. destruct OK as (_ & _ & _ & D). destruct (D p p' I I' (eq_sym E')) as [H _]. congruence.
          - cbn [option_map]. assert (reserved (t1 ps) (p_close p) = true) as -> by (apply reserved_in; eauto). constructor. }
        destruct (find (fun p => (p_open p =? c)%N) ps) as [p|] eqn:Ef; cbn [option_map].
        { apply find_some in Ef. destruct Ef as [I E]. apply N.eqb_eq in E. subst c. apply push_R; auto. apply (IH (p :: st) [] false).
          - intros p0 [<-|H]; auto.
          - cbn [tl]. intros p0 I0. destruct st as [|p1 st']; [contradiction|]. destruct I0 as [<-|I0]; [eapply Nest; eauto|auto].
          - cbn [top]. destruct (p_quote p); auto. right. reflexivity.
          - unfold flag_ok. cbn [top]. destruct (p_quote p); auto. }
        destruct (reserved (t1 ps) c) eqn:Er.
        { apply reserved_in in Er. destruct Er as [(p & I & E)|(-> & Q)].
          - exfalso. destruct (N.eq_dec (p_close p) (p_open p)) as [E'|N].
            + apply (find_none _ _ Ef) in I. rewrite <- E', E, N.eqb_refl in I. discriminate.
            + assert (existsb (str_eqb [c]) (closers_of ds) = true) by (apply closers_in; eauto). congruence.
          - apply Stop. intros H. apply (H Q). apply in_app_iff. right. now left. }
        apply IH; auto; unfold flag_ok; rewrite Tp; auto. intros Q I. apply in_app_iff in I. destruct I as [I|[E|[]]]; [exact (T Q I)|]. subst c.
        assert (reserved (t1 ps) 92%N = true) by (apply reserved_in; auto). congruence.
  Qed.

  (** * what follows *)
  Lemma quoting_spec p : In p ps -> quoting ps [p_open p] = top [p].
  Proof.
    intros I. unfold quoting. destruct (find (fun p0 => p_quote p0 && str_eqb [p_open p0] [p_open p]) ps) as [p'|] eqn:E.
    - apply find_some in E. destruct E as [I' E]. apply andb_true_iff in E. destruct E as [Q E]. rewrite one_eqb in E. apply N.eqb_eq in E. assert (p' = p) by (apply nodup_open; auto). subst p'. cbn. now rewrite Q.
    - cbn. destruct (p_quote p) eqn:Q; auto. apply (find_none _ _ E) in I. rewrite Q in I. cbn in I. now rewrite N.eqb_refl in I.
  Qed.
  Lemma quoting_nil : quoting ps [] = None.
  Proof. unfold quoting. destruct (find _ ps) as [p'|] eqn:E; auto. apply find_some in E. destruct E as [_ E]. apply andb_true_iff in E. destruct E as [_ E]. discriminate. Qed.
  Notation und := (understood ps lb).
  Lemma R_forward st o n : R st o n -> forall l, o = (l, None) -> (n = (l, None) <-> und (top st) l).
  Proof.
    induction 1; intros l E; try discriminate.
    - injection E as <-. split; auto. intros _. destruct text; cbn; auto.
    - injection E as -> ->. destruct (H eq_refl) as (t & o & c & l' & -> & B). split; [discriminate|]. intros [A _]. now destruct B.
    - injection E as <- ->. specialize (IHR lo eq_refl). cbn [understood]. rewrite quoting_spec by auto. rewrite H0. cbn [top] in *. split.
      + intros [= -> ->]. split; auto. now apply IHR.
      + intros [_ U]. apply IHR in U. now injection U as -> ->.
    - injection E as <- ->. specialize (IHR lo eq_refl). cbn [understood]. rewrite quoting_nil. rewrite H0 in IHR. split.
      + intros [= -> ->]. split; auto. now apply IHR.
      + intros [_ U]. apply IHR in U. now injection U as -> ->.
  Qed.
  Notation n_open l := (length (filter (fun t : str * str * str => nonempty (snd (fst t))) l)).
  Notation n_close l := (length (filter (fun t : str * str * str => nonempty (snd t)) l)).
  Lemma R_back st o n : R st o n -> forall l, n = (l, None) ->
    (n_close l <= n_open l + length st) /\
    (n_open l + length st = n_close l -> o = (l, None)) /\ (n_open l + length st <> n_close l -> o = (up_to_last_delimiter l, Some ValueError)).
  Proof.
    induction 1; intros l E; try discriminate; injection E as <-.
    - destruct text; cbn; split; auto; split; auto; congruence.
    - destruct text; cbn; split; try lia; split; auto; lia.
    - subst en. destruct (IHR ln eq_refl) as (A & B & C). unfold up_to_last_delimiter in *. cbn [filter nonempty fst snd orb length] in *. split; [lia|]. split; intros D.
      + assert (D' : n_open ln + S (length st) = n_close ln) by lia. apply B in D'. now injection D' as -> ->.
      + assert (D' : n_open ln + S (length st) <> n_close ln) by lia. apply C in D'. now injection D' as -> ->.
    - subst en. destruct (IHR ln eq_refl) as (A & B & C). unfold up_to_last_delimiter in *. cbn [filter nonempty fst snd orb length] in *. split; [lia|]. split; intros D.
      + assert (D' : n_open ln + length st = n_close ln) by lia. apply B in D'. now injection D' as -> ->.
      + assert (D' : n_open ln + length st <> n_close ln) by lia. apply C in D'. now injection D' as -> ->.
  Qed.
  (** the errors *)
  Lemma R_prefix st o n : R st o n -> (exists more, fst n = fst o ++ more) \/ (exists more, fst o = fst n ++ more).
  Proof.
    induction 1; cbn [fst] in *; try (left; eexists; reflexivity); try (right; eexists; reflexivity).
    - left. exists []. now rewrite app_nil_r.
    - destruct IHR as [[m ->]|[m ->]]; [left|right]; exists m; reflexivity.
    - destruct IHR as [[m ->]|[m ->]]; [left|right]; exists m; reflexivity.
  Qed.
  Lemma R_stops st o n : R st o n -> forall l, n = (l, Some SyntaxError) -> exists more, fst o = l ++ more.
  Proof.
    induction 1; intros l E; try discriminate; injection E as <-; cbn [fst]; try (eexists; reflexivity).
    - subst. destruct (IHR ln eq_refl) as [m E]. exists m. cbn in E. now rewrite E.
    - subst. destruct (IHR ln eq_refl) as [m E]. exists m. cbn in E. now rewrite E.
  Qed.
  Lemma R_errors st o n : R st o n -> snd n = None \/ snd n = Some SyntaxError.
  Proof. induction 1; cbn in *; auto. Qed.
End Sim.
