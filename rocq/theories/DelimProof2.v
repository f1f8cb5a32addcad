(** split_quoted_strings with one-character marks equals the character scanner. *)
From Verif Require Import DelimModel DelimSpec SplitSpec SplitProof SplitProof2 SplitProof3 SplitProps PyStrProof DelimProof.

Definition prepend (c : chr) (p : list (str * str) * str) : list (str * str) * str :=
  match p with ((x, w) :: l, y) => ((c :: x, w) :: l, y) | ([], y) => ([], c :: y) end.
Definition is_split (seps : list str) (s : str) (p : list (str * str) * str) : Prop := splits true seps None s (fst p) (snd p).
Lemma is_split_nil seps : Forall (fun w : str => w <> []) seps -> is_split seps [] ([], []).
Proof.
  intros NE. apply split_none. intros i (w & t & I & E). rewrite skipn_nil in E. symmetry in E. apply app_eq_nil in E. destruct E as [-> _].
  rewrite Forall_forall in NE. exact (NE _ I eq_refl).
Qed.
Lemma is_split_tok seps w t p : longest seps w t -> is_split seps t p -> is_split seps (w ++ t) (([], w) :: fst p, snd p).
Proof.
  intros L S. unfold is_split. cbn [fst snd]. apply (split_cut true seps None [] w t); auto; [discriminate|]. intros i Hi. cbn in Hi. lia.
Qed.
Lemma is_split_cons seps c s p : ~ sep_at seps (c :: s) 0 -> is_split seps s p -> is_split seps (c :: s) (prepend c p).
Proof.
  intros N S. unfold is_split in *. destruct p as [l y]. cbn [fst snd] in S. remember None as n. destruct S as [|n s F|n x w t l y Hn Lf O S]; [discriminate| |]; cbn [prepend fst snd].
  - apply split_none. intros [|i] H; [auto|]. apply (F i). exact H.
  - change (c :: x ++ w ++ t) with ((c :: x) ++ w ++ t). apply split_cut; auto. intros [|i] Hi H; [exact (N H)|]. apply (Lf i); [cbn in Hi; lia|exact H].
Qed.
Lemma multisplit_pairs seps s p : Forall (fun w : str => w <> []) seps -> seps <> [] -> is_split seps s p ->
  multisplit s (Some seps) AsPairs (Some (-1)%Z) false true StripFalse = Ok (as_pairs (fst p) (snd p)).
Proof.
  intros NE NN S. destruct (C32_multisplit_is_the_split s (Some seps) AsPairs (Some (-1)%Z) false true) as (l & y & S' & ->); [split; auto|].
  cbn in S'. destruct (proj1 (C32_split_is_unique true seps None s l y (fst p) (snd p) NE) S' S) as [-> ->]. reflexivity.
Qed.
Lemma as_pairs_prepend c p : as_pairs (fst (prepend c p)) (snd (prepend c p)) =
  match as_pairs (fst p) (snd p) with Two x w :: r => Two (c :: x) w :: r | r => r end.
Proof. destruct p as [[|[x w] l] y]; reflexivity. Qed.
Lemma splits_toks_nonempty seps s l y : Forall (fun w : str => w <> []) seps -> splits true seps None s l y -> Forall (fun p : str * str => snd p <> []) l.
Proof.
  intros NE S. remember None as n. revert Heqn. induction S; intros; subst; auto. constructor; auto.
  destruct H1 as [I _]. rewrite Forall_forall in NE. now apply NE.
Qed.

Definition one (c : chr) : str := [c].
Lemma in_one c l : In [c] (map one l) <-> In c l.
Proof. rewrite in_map_iff. unfold one. split; [intros (x & [= ->] & I); auto|intros I; now exists c]. Qed.
Lemma str_in_one c l : str_in [c] (map one l) = chr_in c l.
Proof.
  unfold str_in, chr_in. induction l as [|x l IH]; cbn [map existsb]; auto. rewrite IH. f_equal. cbn. apply andb_true_r.
Qed.
Lemma chr_in_iff c l : chr_in c l = true <-> In c l.
Proof. rewrite <- str_in_one, str_in_iff. apply in_one. Qed.

Section Scanner.
  Context (quotes multi : list chr) (escape : option chr).
  Definition esc_str : str := match escape with Some e => [e] | None => [] end.
  Definition seps1 : list str := quote_separators (map one quotes) (map one multi) esc_str.
  Definition escaped_pair (c d : chr) : bool :=
    match escape with Some e => (c =? e)%N && (chr_in d quotes || (d =? e)%N) | None => false end.
  Fixpoint toks (s : str) : list (str * str) * str :=
    match s with
    | [] => ([], [])
    | c :: t =>
        let single := if chr_in c (quotes ++ multi) then (([], [c]) :: fst (toks t), snd (toks t)) else prepend c (toks t) in
        match t with
        | d :: t' => if escaped_pair c d then (([], [c; d]) :: fst (toks t'), snd (toks t')) else single
        | [] => single
        end
    end.
  Lemma in_seps1 w : In w seps1 <-> (exists c, w = [c] /\ In c (quotes ++ multi)) \/ (exists c d, w = [c; d] /\ escaped_pair c d = true).
  Proof.
    unfold seps1, quote_separators. rewrite app_assoc, <- map_app, in_app_iff.
    assert (A : In w (map one (quotes ++ multi)) <-> exists c, w = [c] /\ In c (quotes ++ multi)).
    { rewrite in_map_iff. unfold one. split; intros (c & H1 & H2); exists c; auto. }
    rewrite A. apply or_iff_compat_l. unfold escaped_pair, esc_str. destruct escape as [e|]; cbn [is_nil].
    - rewrite in_app_iff, in_map_iff. split.
      + intros [(q & <- & I)|[<-|[]]].
        * rewrite in_map_iff in I. destruct I as (d & <- & I). exists e, d. split; auto. rewrite N.eqb_refl, (proj2 (chr_in_iff d quotes) I). reflexivity.
        * exists e, e. split; auto. rewrite !N.eqb_refl, orb_true_r. reflexivity.
      + intros (c & d & -> & H). apply andb_true_iff in H. destruct H as [H1 H2]. apply N.eqb_eq in H1. subst c. apply orb_true_iff in H2. destruct H2 as [H2|H2].
        * left. exists [d]. split; auto. apply in_one. now apply chr_in_iff.
        * right. apply N.eqb_eq in H2. subst d. now left.
    - split; [intros []|intros (c & d & _ & H); discriminate].
  Qed.
  Lemma seps1_nonempty : Forall (fun w : str => w <> []) seps1.
  Proof. apply Forall_forall. intros w I. apply in_seps1 in I. destruct I as [(c & -> & _)|(c & d & -> & _)]; discriminate. Qed.
  Lemma toks_split s : is_split seps1 s (toks s).
  Proof.
    remember (length s) as n. revert s Heqn. induction n as [n IH] using lt_wf_ind. intros s Hn.
    destruct s as [|c t]; [apply is_split_nil, seps1_nonempty|]. cbn [toks].
    assert (IHt : is_split seps1 t (toks t)) by (apply (IH (length t)); auto; subst; cbn; lia).
    assert (Single : (forall d t', t = d :: t' -> escaped_pair c d = false) ->
      is_split seps1 (c :: t) (if chr_in c (quotes ++ multi) then (([], [c]) :: fst (toks t), snd (toks t)) else prepend c (toks t))).
    { intros Esc. destruct (chr_in c (quotes ++ multi)) eqn:Q.
      - apply (is_split_tok seps1 [c] t); auto. split.
        + apply in_seps1. left. exists c. split; auto. now apply chr_in_iff.
        + intros w' t' I E. apply in_seps1 in I. destruct I as [(x & -> & _)|(x & d & -> & P)]; [cbn; lia|].
          cbn in E. injection E as <- E. rewrite (Esc d t' E) in P. discriminate.
      - apply is_split_cons; auto. intros (w & t' & I & E). cbn in E. apply in_seps1 in I. destruct I as [(x & -> & J)|(x & d & -> & P)]; injection E as <- E.
        + apply chr_in_iff in J. congruence.
        + rewrite (Esc d t' E) in P. discriminate. }
    destruct t as [|d t']; [apply Single; discriminate|].
    destruct (escaped_pair c d) eqn:P.
    - apply (is_split_tok seps1 [c; d] t'); [|apply (IH (length t')); auto; subst; cbn; lia]. split.
      + apply in_seps1. right. eauto.
      + intros w' t2 I E. apply in_seps1 in I. destruct I as [(x & -> & _)|(x & z & -> & _)]; cbn; lia.
    - apply Single. intros d0 t0 [= <- <-]. exact P.
  Qed.

  Context (is_bytes : bool).
  Notation all_quotes := (map one (quotes ++ multi)).
  Notation loop := (quoted_loop is_bytes all_quotes (map one multi)).
  Notation bad := (illegal is_bytes (map one multi)).
  Lemma same_nil (B B' : list str) : all_nonempty B -> all_nonempty B' -> concat B = concat B' -> is_nil B = is_nil B'.
  Proof.
    intros M M' E. destruct M as [|a l Ha], M' as [|b l' Hb]; auto; cbn in E; exfalso; [destruct b|destruct a]; (congruence || discriminate).
  Qed.
  Lemma loop_buffer ps : forall b b' q state, concat b = concat b' -> all_nonempty b -> all_nonempty b' ->
    Forall (fun i => match i with Two _ w => w <> [] | Str _ => False end) ps -> forall y, loop (ps ++ [Two y []]) b q state = loop (ps ++ [Two y []]) b' q state.
  Proof.
    intros b b' q state C N N' F y. revert b b' q state C N N'. induction F as [|[?|x w] ps Hw F IH]; intros b b' q state C N N'; [| contradiction |].
    - assert (E : concat (add_literal b y) = concat (add_literal b' y)) by (rewrite !concat_lit; congruence).
      pose proof (all_nonempty_lit _ y N) as M. pose proof (all_nonempty_lit _ y N') as M'. cbn [app quoted_loop]. cbv zeta.
      set (B := add_literal b y) in *. set (B' := add_literal b' y) in *.
      assert (Z : is_nil B = is_nil B').
      { now apply same_nil. }
      rewrite !is_nil_snoc, !concat_snoc, E, Z. reflexivity.
    - assert (E : concat (add_literal b x) = concat (add_literal b' x)) by (rewrite !concat_lit; congruence).
      pose proof (all_nonempty_lit _ x N) as M. pose proof (all_nonempty_lit _ x N') as M'. cbn [app quoted_loop]. cbv zeta.
      set (B := add_literal b x) in *. set (B' := add_literal b' x) in *.
      assert (Z : is_nil B = is_nil B').
      { now apply same_nil. }
      assert (IHw : forall q0 st0, loop (ps ++ [Two y []]) (B ++ [w]) q0 st0 = loop (ps ++ [Two y []]) (B' ++ [w]) q0 st0).
      { intros. apply IH; [rewrite !concat_snoc; congruence|apply Forall_app; auto|apply Forall_app; auto]. }
      rewrite !IHw, !E, !Z. rewrite (IH B B') by auto. reflexivity.
  Qed.
  Lemma add_move buffer c x : concat (add_literal buffer (c :: x)) = concat (add_literal (buffer ++ [[c]]) x).
  Proof. rewrite !concat_lit, concat_snoc, <- app_assoc. reflexivity. Qed.
  Lemma loop_add ps w x c : Forall (fun i => match i with Two _ w => w <> [] | Str _ => False end) ps -> forall buffer y q state, all_nonempty buffer -> w <> [] ->
    loop (Two (c :: x) w :: ps ++ [Two y []]) buffer q state = loop (Two x w :: ps ++ [Two y []]) (buffer ++ [[c]]) q state.
  Proof.
    intros F buffer y q state N Hw. pose proof (add_move buffer c x) as E.
    assert (N1 : all_nonempty (buffer ++ [[c]])) by (apply Forall_app; split; auto; repeat constructor; discriminate).
    pose proof (all_nonempty_lit _ (c :: x) N) as M. pose proof (all_nonempty_lit _ x N1) as M'. cbn [quoted_loop]. cbv zeta.
    set (B := add_literal buffer (c :: x)) in *. set (B' := add_literal (buffer ++ [[c]]) x) in *.
    assert (Z : is_nil B = is_nil B') by (now apply same_nil).
    assert (IHw : forall q0 st0, loop (ps ++ [Two y []]) (B ++ [w]) q0 st0 = loop (ps ++ [Two y []]) (B' ++ [w]) q0 st0).
    { intros. apply loop_buffer; auto; [rewrite !concat_snoc; congruence|apply Forall_app; auto|apply Forall_app; auto]. }
    rewrite !IHw, !E, !Z. rewrite (loop_buffer ps B B') by auto. reflexivity.
  Qed.
  Lemma loop_last x c : forall buffer q state, all_nonempty buffer -> loop [Two (c :: x) []] buffer q state = loop [Two x []] (buffer ++ [[c]]) q state.
  Proof.
    intros buffer q state N. pose proof (add_move buffer c x) as E.
    assert (N1 : all_nonempty (buffer ++ [[c]])) by (apply Forall_app; split; auto; repeat constructor; discriminate).
    pose proof (all_nonempty_lit _ (c :: x) N) as M. pose proof (all_nonempty_lit _ x N1) as M'. cbn [quoted_loop]. cbv zeta.
    set (B := add_literal buffer (c :: x)) in *. set (B' := add_literal (buffer ++ [[c]]) x) in *.
    assert (Z : is_nil B = is_nil B') by (now apply same_nil).
    rewrite !is_nil_snoc, !concat_snoc, E, Z. reflexivity.
  Qed.
  Lemma toks_nonempty s : Forall (fun i => match i with Two _ w => w <> [] | Str _ => False end) (map (fun p : str * str => Two (fst p) (snd p)) (fst (toks s))).
  Proof.
    apply Forall_map. pose proof (splits_toks_nonempty _ _ _ _ seps1_nonempty (toks_split s)) as F. eapply Forall_impl; [|exact F]. auto.
  Qed.
  Definition pairs s := as_pairs (fst (toks s)) (snd (toks s)).
  Lemma loop_prepend c s buffer q state : all_nonempty buffer ->
    loop (as_pairs (fst (prepend c (toks s))) (snd (prepend c (toks s)))) buffer q state = loop (pairs s) (buffer ++ [[c]]) q state.
  Proof.
    intros N. rewrite as_pairs_prepend. unfold pairs, as_pairs. pose proof (toks_nonempty s) as F.
    destruct (toks s) as [[|[x w] l] y]; cbn [fst snd map app] in *.
    - apply loop_last; auto.
    - inversion F as [|? ? Hw Fl]; subst. apply (loop_add _ w x c); auto.
  Qed.
  Notation scan := (scan quotes multi escape).
  Lemma scan_cons mode text c t : scan mode text (c :: t) =
    let single := match mode with
          | None => if chr_in c (quotes ++ multi) then unquoted_segment text ++ scan (Some (c, [c])) [] t else scan mode (text ++ [c]) t
          | Some (q, first) => if (c =? q)%N then mkSegment first text [q] [q] :: scan None [] t else scan mode (text ++ [c]) t
          end in
    match t with d :: t' => if escaped_pair c d then scan mode (text ++ [c; d]) t' else single | [] => single end.
  Proof. unfold escaped_pair. cbn [DelimSpec.scan]. destruct t; [reflexivity|]. destruct escape; reflexivity. Qed.
  Lemma pairs_cons c t : pairs (c :: t) =
    let single := if chr_in c (quotes ++ multi) then Two [] [c] :: pairs t else as_pairs (fst (prepend c (toks t))) (snd (prepend c (toks t))) in
    match t with d :: t' => if escaped_pair c d then Two [] [c; d] :: pairs t' else single | [] => single end.
  Proof.
    unfold pairs. cbn [toks]. destruct t as [|d t'].
    - destruct (chr_in c (quotes ++ multi)); reflexivity.
    - destruct (escaped_pair c d); [reflexivity|]. destruct (chr_in c (quotes ++ multi)); reflexivity.
  Qed.
  Lemma str_in_two c d : str_in [c; d] all_quotes = false.
  Proof. apply str_in_false. intros I. apply in_map_iff in I. destruct I as (x & E & _). discriminate. Qed.
  Lemma all_quotes_nonempty q : In q all_quotes -> q <> [].
  Proof. intros I ->. apply in_map_iff in I. destruct I as (x & E & _). discriminate. Qed.
  Lemma scan_loop s : forall buffer, all_nonempty buffer ->
    loop (pairs s) buffer [] [] = deliver bad (scan None (concat buffer) s) /\
    forall q state, (state = [] \/ state = [q]) -> chr_in q (quotes ++ multi) = true ->
      loop (pairs s) buffer [q] state = deliver bad (scan (Some (q, match state with [] => [q] | _ => [] end)) (concat buffer) s).
  Proof.
    remember (length s) as n. revert s Heqn. induction n as [n IH] using lt_wf_ind. intros s Hn buffer N.
    destruct s as [|c t].
    - unfold pairs, as_pairs. cbn [toks fst snd map app quoted_loop]. cbv zeta. cbn [is_nil DelimSpec.scan].
      unfold add_literal. cbn [is_nil]. split.
      + assert (str_in [] all_quotes = false) as -> by (apply str_in_false; intros I; exact (all_quotes_nonempty _ I eq_refl)).
        cbn [negb]. rewrite is_nil_snoc, concat_snoc, app_nil_r, andb_true_r.
        rewrite <- (app_nil_r (unquoted_segment _)), deliver_unquoted. cbn [deliver]. rewrite app_nil_r. now destruct (concat buffer).
      + intros q state S Q. cbn [str_eqb negb]. rewrite is_nil_snoc, concat_snoc, app_nil_r, andb_false_r. cbn [deliver].
        rewrite <- (illegal_text_eq _ _ [q] (concat buffer)) by discriminate. cbn [lead body trail].
        destruct (illegal_text _ _ _ _); [reflexivity|]. destruct S as [-> | ->]; reflexivity.
    - assert (IHt : forall buffer, all_nonempty buffer -> _) by (intros b Nb; exact (IH (length t) ltac:(subst; cbn; lia) t eq_refl b Nb)).
      assert (N0 : all_nonempty []) by constructor.
      assert (N1 : all_nonempty (buffer ++ [[c]])) by (apply Forall_app; split; auto; repeat constructor; discriminate).
      rewrite pairs_cons, !(scan_cons None). cbv zeta.
      set (single := if chr_in c (quotes ++ multi) then Two [] [c] :: pairs t else as_pairs (fst (prepend c (toks t))) (snd (prepend c (toks t)))).
      assert (Single : loop single buffer [] [] = deliver bad (if chr_in c (quotes ++ multi) then unquoted_segment (concat buffer) ++ scan (Some (c, [c])) [] t else scan None (concat buffer ++ [c]) t) /\
        forall q state, (state = [] \/ state = [q]) -> chr_in q (quotes ++ multi) = true ->
          loop single buffer [q] state = deliver bad (if (c =? q)%N then mkSegment (match state with [] => [q] | _ => [] end) (concat buffer) [q] [q] :: scan None [] t
             else scan (Some (q, match state with [] => [q] | _ => [] end)) (concat buffer ++ [c]) t)).
      { unfold single. destruct (chr_in c (quotes ++ multi)) eqn:C.
        - cbn [quoted_loop is_nil]. cbv zeta. unfold add_literal. cbn [is_nil]. rewrite str_in_one, C. cbn [negb]. split.
          + rewrite deliver_unquoted. destruct (IHt [] N0) as [_ IHq]. specialize (IHq c [] (or_introl eq_refl) C). cbn [concat] in IHq.
            pose proof (nonempty_concat _ N) as [A1 A2]. destruct (is_nil buffer) eqn:Z.
            * apply is_nil_iff in Z. rewrite Z in *. cbn [concat]. rewrite IHq. now destruct (deliver bad _).
            * apply is_nil_false in Z. rewrite IHq. destruct (concat buffer) eqn:CB; [exfalso; auto|]. unfold yield_. now destruct (deliver bad _).
          + intros q state S Q. cbn [str_eqb]. rewrite andb_true_r. destruct (c =? q)%N eqn:E; cbn [negb].
            * apply N.eqb_eq in E. subst c. cbn [deliver]. rewrite <- (illegal_text_eq _ _ [q] (concat buffer)) by discriminate. cbn [lead body trail].
              destruct (illegal_text _ _ _ _); [reflexivity|]. destruct (IHt [] N0) as [IHo _]. cbn [concat] in IHo.
              destruct S as [-> | ->]; cbn [is_nil]; rewrite IHo; unfold yield_; now destruct (deliver bad _).
            * destruct (IHt _ N1) as [_ IHq]. etransitivity; [exact (IHq q state S Q)|]. now rewrite concat_snoc.
        - rewrite !loop_prepend by auto. destruct (IHt _ N1) as [IHo IHq]. rewrite concat_snoc in *. split; [exact IHo|].
          intros q state S Q. rewrite loop_prepend by auto. etransitivity; [exact (IHq q state S Q)|].
          destruct (c =? q)%N eqn:E; [apply N.eqb_eq in E; congruence|]. reflexivity. }
      destruct t as [|d t']; [split; [apply Single|]; intros; rewrite scan_cons; now apply Single|].
      destruct (escaped_pair c d) eqn:P.
      + assert (N2 : all_nonempty (buffer ++ [[c; d]])) by (apply Forall_app; split; auto; repeat constructor; discriminate).
        destruct (IH (length t') ltac:(subst; cbn; lia) t' eq_refl _ N2) as [IHo IHq]. rewrite concat_snoc in *.
        cbn [quoted_loop is_nil]. cbv zeta. unfold add_literal. cbn [is_nil]. rewrite str_in_two. cbn [negb]. split; [exact IHo|].
        intros q state S Q. assert (str_eqb [c; d] [q] = false) as -> by (cbn; apply andb_false_r). cbn [negb].
        rewrite scan_cons, P. cbv zeta. now apply IHq.
      + split; [apply Single|]. intros q state S Q. rewrite scan_cons, P. cbv zeta. now apply Single.
  Qed.
End Scanner.
