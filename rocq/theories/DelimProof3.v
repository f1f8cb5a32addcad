(** split_delimiters: nesting, exceptions, termination, for all tables. *)
From Verif Require Import DelimModel DelimSpec SplitSpec SplitProof SplitProof2 SplitProof3 SplitProps PyStrProof DelimProof DelimProof2.

(** a table made of Delimiter objects with non-empty strings *)
Record table_ok (table : delimiters) : Prop := {
  ok_nonempty : table <> [];
  ok_keys : forall k d, In (k, d) table -> k <> [] /\ d_close d <> [];
  ok_quoting : forall k d, In (k, d) table -> (d_quoting d = true <-> d_escape d <> []);
  ok_multiline : forall k d, In (k, d) table -> d_quoting d = true \/ d_multiline d = true;
  ok_disjoint : forall k k' d, In k (openers table) -> In (k', d) table -> d_quoting d = false -> d_close d <> k }.

Section Table.
  Context (is_bytes : bool) (table : delimiters) (OK : table_ok table).
  Lemma get_in k d : get table k = Some d -> In (k, d) table.
  Proof.
    clear OK. induction table as [|[k' d'] t IH]; cbn; [discriminate|]. destruct (str_eqb k' k) eqn:E; auto. apply str_eqb_iff in E. intros [= <-]. left. congruence.
  Qed.
  Lemma get_none k : get table k = None -> ~ In k (openers table).
  Proof.
    clear OK. unfold openers. induction table as [|[k' d'] t IH]; cbn; [auto|]. destruct (str_eqb k' k) eqn:E; [discriminate|]. intros H [<-|I]; [now rewrite str_eqb_refl in E|now apply IH].
  Qed.
  Lemma tokens_nonempty : Forall (fun w : str => w <> []) (all_tokens is_bytes table).
  Proof.
    apply Forall_forall. intros w I. unfold all_tokens, delimiter_tokens, openers, closers, escapes in I. rewrite !in_app_iff, !in_map_iff in I.
    destruct I as [[(p & <- & I)|[(p & <- & I)|(p & <- & I)]]|I].
    - destruct p as [k d]. apply (ok_keys _ OK k d I).
    - destruct p as [k d]. apply (ok_keys _ OK k d I).
    - apply filter_In in I. destruct p as [k d]. apply (ok_quoting _ OK k d); tauto.
    - unfold newlines_of in I. destruct (forallb _ _); [contradiction|]. destruct is_bytes; vm_compute in I; intuition (subst; discriminate).
  Qed.
  Lemma tokens_nonnil : all_tokens is_bytes table <> [].
  Proof. pose proof (ok_nonempty _ OK) as N. unfold all_tokens, delimiter_tokens, openers. destruct table; [congruence|discriminate]. Qed.

  (** the state is one the table leads to *)
  Definition in_table (cur : option delimiter) : Prop := match cur with None => True | Some d => exists k, In (k, d) table end.
  Notation lookup := (lookup is_bytes table).
  Definition push_case (a : action) : Prop := match a with Push _ _ => True | _ => False end.
  Lemma token_loop_shape q cs t l : forall old, (token_loop q cs l t old = old) \/ (token_loop q cs l t old = Flush1 /\ q = true /\ shares_characters t cs = true) \/
    exists s, token_loop q cs l t old = Truncate s /\ In s l /\ s <> t /\ starts_with s t = true.
  Proof.
    induction l as [|s l IH]; intros old; cbn [token_loop]; auto.
    destruct (str_eqb t s) eqn:E.
    - destruct (IH old) as [H|[H|(s' & H1 & H2)]]; auto. right. right. exists s'. intuition.
    - destruct (starts_with s t) eqn:W.
      + right. right. exists s. repeat split; auto; [now left|]. intros ->. now rewrite str_eqb_refl in E.
      + destruct (q && shares_characters t cs) eqn:Sh.
        * apply andb_true_iff in Sh. destruct (IH Flush1) as [H|[H|(s' & H1 & H2)]]; auto. right. right. exists s'. intuition.
        * destruct (IH old) as [H|[H|(s' & H1 & H2)]]; auto. right. right. exists s'. intuition.
  Qed.
  (** everything lookup can return *)
  Inductive lookup_shape (cur : option delimiter) (t : str) : action -> Prop :=
  | shape_push d : get table t = Some d -> match cur with None => True | Some d0 => d_quoting d0 = false end -> lookup_shape cur t (Push t d)
  | shape_pop d : cur = Some d -> t = d_close d -> lookup_shape cur t Pop
  | shape_escape d : cur = Some d -> d_escape d <> [] -> t = d_escape d -> lookup_shape cur t Escape
  | shape_illegal : match cur with None => True | Some d0 => d_quoting d0 = false end -> lookup_shape cur t Illegal
  | shape_newline d : cur = Some d -> d_quoting d = true -> d_multiline d = false -> In t (newlines_of is_bytes table) -> lookup_shape cur t IllegalNewline
  | shape_flush : (match cur with None => False | Some d0 => d_quoting d0 = true end \/ ~ In t (delimiter_tokens table)) -> lookup_shape cur t Flush
  | shape_flush1 d : cur = Some d -> d_quoting d = true -> t <> d_close d -> t <> d_escape d -> shares_characters t (d_close d ++ d_escape d) = true -> lookup_shape cur t Flush1
  | shape_truncate d s : cur = Some d -> (s = d_close d \/ (s = d_escape d /\ d_escape d <> [])) -> s <> t -> starts_with s t = true -> lookup_shape cur t (Truncate s).
  Lemma lookup_has_shape cur t : in_table cur -> lookup_shape cur t (lookup cur t).
  Proof.
    intros IT. destruct cur as [d|]; cbn [DelimModel.lookup].
    - destruct IT as [k IT].
      set (default := if d_quoting d then Flush else _).
      set (a1 := if str_in t (all_tokens _ _) then _ else default).
      set (a2 := if d_quoting d && _ && _ then IllegalNewline else a1).
      set (a3 := if str_eqb t (d_close d) then Pop else a2).
      set (a4 := if negb (is_nil (d_escape d)) && _ then Escape else a3).
      assert (D0 : lookup_shape (Some d) t default \/ default = Illegal).
      { unfold default. destruct (d_quoting d) eqn:Q; [left; apply shape_flush; left; auto|]. destruct (str_in t _) eqn:I; [now right|].
        left. apply shape_flush. right. now apply str_in_false. }
      assert (Dq : d_quoting d = true -> default = Flush) by (intros Q; unfold default; now rewrite Q).
      assert (S3 : (d_escape d <> [] -> t <> d_escape d) -> lookup_shape (Some d) t a3).
      { intros NotE. unfold a3. destruct (str_eqb t (d_close d)) eqn:Ec; [apply shape_pop with d; auto; now apply str_eqb_iff|].
        assert (Nc : t <> d_close d) by (intros ->; now rewrite str_eqb_refl in Ec).
        unfold a2. destruct (d_quoting d && negb (d_multiline d) && str_in t _) eqn:Nl.
        { rewrite !andb_true_iff, negb_true_iff in Nl. destruct Nl as [[N1 N2] N3]. apply shape_newline with d; auto. now apply str_in_iff. }
        assert (Sd : lookup_shape (Some d) t default).
        { destruct D0 as [D0|D0]; auto. rewrite D0. apply shape_illegal. destruct (d_quoting d) eqn:Q; auto. rewrite Dq in D0 by auto. discriminate. }
        unfold a1. destruct (str_in t (all_tokens _ _)); auto.
        destruct (token_loop_shape (d_quoting d) (d_close d ++ d_escape d) t (d_close d :: (if is_nil (d_escape d) then [] else [d_escape d])) default)
          as [->|[(-> & Q & Sh)|(s & -> & I & Ns & W)]]; auto.
        - apply shape_flush1 with d; auto. apply NotE. now apply (ok_quoting _ OK k d).
        - apply shape_truncate with d; auto. destruct I as [<-|I]; auto. right. destruct (is_nil (d_escape d)) eqn:Z; [contradiction|]. apply is_nil_false in Z. destruct I as [<-|[]]. auto. }
      assert (S4 : lookup_shape (Some d) t a4).
      { unfold a4. destruct (negb (is_nil (d_escape d)) && str_eqb t (d_escape d)) eqn:E.
        - rewrite andb_true_iff, negb_true_iff, is_nil_false in E. destruct E as [E1 E2]. apply shape_escape with d; auto. now apply str_eqb_iff.
        - apply S3. intros E1 ->. rewrite str_eqb_refl, andb_true_r in E. apply negb_false_iff, is_nil_iff in E. congruence. }
      destruct (d_quoting d) eqn:Q; auto. unfold push_or. destruct (get table t) as [d'|] eqn:G; auto. apply shape_push; auto.
    - unfold push_or. destruct (get table t) as [d'|] eqn:G; [now apply shape_push|]. destruct (str_in t _) eqn:I; [now apply shape_illegal|].
      apply shape_flush. right. now apply str_in_false.
  Qed.
  Lemma lookup_truncated d s : in_table (Some d) -> (s = d_close d \/ (s = d_escape d /\ d_escape d <> [])) ->
    (lookup (Some d) s = Pop /\ s = d_close d) \/ lookup (Some d) s = Escape.
  Proof.
    intros [k I] H. cbn [DelimModel.lookup].
    match goal with |- context [if str_eqb s (d_close d) then Pop else ?a] => generalize a; intros a0 end.
    destruct (negb (is_nil (d_escape d)) && str_eqb s (d_escape d)) eqn:E.
    - rewrite andb_true_iff, negb_true_iff, is_nil_false in E. rewrite (proj2 (ok_quoting _ OK k d I)) by tauto. now right.
    - destruct H as [->|[-> N]].
      + rewrite str_eqb_refl. destruct (d_quoting d) eqn:Q; [now left|]. unfold push_or. destruct (get table (d_close d)) as [d'|] eqn:G; [|now left].
        exfalso. apply get_in in G. apply (ok_disjoint _ OK (d_close d) k d); auto. apply in_map_iff. exists (d_close d, d'). auto.
      + rewrite str_eqb_refl, andb_true_r, negb_false_iff, is_nil_iff in E. contradiction.
  Qed.

  Definition key_close (k : str) : option str := option_map d_close (get table k).
  Definition key_quoting (k : str) : bool := match get table k with Some d => d_quoting d | None => false end.
  Fixpoint corr (cur : option delimiter) (stack : list (option delimiter)) (ks : list str) {struct ks} : Prop :=
    match ks with
    | [] => cur = None /\ stack = []
    | k :: ks' => (exists d, cur = Some d /\ get table k = Some d) /\ match stack with [] => False | c :: st => corr c st ks' end
    end.
  Lemma corr_in_table cur stack ks : corr cur stack ks -> in_table cur.
  Proof. destruct ks as [|k ks]; cbn; [intros [-> _]; exact I|]. intros [(d & -> & G) _]. exists k. now apply get_in. Qed.
  Inductive runs : list str -> list triple -> list str -> Prop :=
  | runs_nil ks : runs ks [] ks
  | runs_open ks t k c y ks' : key_close k = Some c -> k <> [] -> match ks with [] => True | top :: _ => key_quoting top = false end ->
      runs (k :: ks) y ks' -> runs ks ((t, k, []) :: y) ks'
  | runs_close k ks t c y ks' : key_close k = Some c -> c <> [] -> runs ks y ks' -> runs (k :: ks) ((t, [], c) :: y) ks'.
  Lemma runs_nested ks y ks' z : runs ks y ks' -> nested key_close key_quoting ks' z -> nested key_close key_quoting ks (y ++ z).
  Proof. induction 1; intros N; cbn; auto; [eapply nested_open|eapply nested_close]; eauto. Qed.
  Lemma runs_app ks y ks' y' ks'' : runs ks y ks' -> runs ks' y' ks'' -> runs ks (y ++ y') ks''.
  Proof. induction 1; intros N; cbn; auto; [eapply runs_open|eapply runs_close]; eauto. Qed.
  Lemma corr_push cur stack ks t d : corr cur stack ks -> get table t = Some d -> corr (Some d) (cur :: stack) (t :: ks).
  Proof. intros C G. cbn. split; eauto. Qed.
  Lemma corr_pop d stack ks : corr (Some d) stack ks -> exists k ks' c st, ks = k :: ks' /\ stack = c :: st /\ corr c st ks' /\ key_close k = Some (d_close d) /\ In (k, d) table.
  Proof.
    destruct ks as [|k ks]; cbn; [intros [H _]; discriminate|]. intros [(d0 & D & G) H]; injection D as D; subst d0. destruct stack as [|c st]; [contradiction|].
    exists k, ks, c, st. repeat split; auto; [unfold key_close; now rewrite G|now apply get_in].
  Qed.
  Lemma corr_top cur stack ks : corr cur stack ks -> match cur with None => True | Some d0 => d_quoting d0 = false end -> match ks with [] => True | top :: _ => key_quoting top = false end.
  Proof. destruct ks as [|k ks]; cbn; auto. intros [(d & -> & G) _] Q. unfold key_quoting. now rewrite G. Qed.

  Notation loop := (delimiter_loop is_bytes table).
  Definition after (consumed : nat) (l : list (str * str)) (r : outcome) (ks' : list str) : Prop :=
    match r with
    | Finished _ _ => True
    | Raised e => e = SyntaxError
    | Resplit c st b e n => corr c st ks' /\ consumed < n /\ l <> []
    end.
  Lemma after_weaken consumed consumed' l l' r ks : after consumed' l' r ks -> consumed <= consumed' -> l <> [] -> after consumed l r ks.
  Proof. destruct r; cbn; auto. intros (A & B & C) L N. repeat split; auto. lia. Qed.
  Lemma loop_spec l y : Forall (fun p : str * str => snd p <> []) l -> forall cur stack ks buffer escaped consumed ys r,
    corr cur stack ks -> loop (as_pairs l y) cur stack buffer escaped consumed = (ys, r) ->
    exists ks', runs ks ys ks' /\ after consumed l r ks'.
  Proof.
    induction 1 as [|[x w] l Hw Fl IH]; intros cur stack ks buffer escaped consumed ys r C E.
    - unfold as_pairs in E. cbn [map app delimiter_loop is_nil] in E. rewrite andb_true_r in E.
      assert (Q : ys = [] /\ match r with Finished _ _ => True | Resplit _ _ _ _ _ => False | Raised _ => False end \/ ys = [] /\ after consumed [] r ks).
      { destruct (is_nil y) eqn:Y; [injection E as <- <-; now left|]. rewrite andb_false_r in E. injection E as <- <-. now left. }
      exists ks. destruct Q as [[-> Q]|[-> Q]]; (split; [constructor|]); auto. destruct r; cbn; auto; contradiction.
    - assert (Eap : as_pairs ((x, w) :: l) y = Two x w :: as_pairs l y) by reflexivity. rewrite Eap in E. cbn [delimiter_loop] in E.
      assert (Zw : is_nil w = false) by (now apply is_nil_false). cbn [snd] in Hw. rewrite Zw, andb_false_r in E.
      destruct (negb (is_nil escaped) && is_nil x) eqn:Esc.
      + destruct (length w =? 1).
        * destruct (IH _ _ _ _ _ _ _ _ C E) as (ks' & R & A). exists ks'. split; auto. eapply after_weaken; eauto; [lia|discriminate].
        * injection E as <- <-. exists ks. split; [constructor|]. cbn. repeat split; auto; [lia|discriminate].
      + cbv zeta in E. pose proof (lookup_has_shape cur w (corr_in_table _ _ _ C)) as S.
        assert (Pop_case : forall d delim, cur = Some d -> delim = d_close d ->
           exists k ks' c st, ks = k :: ks' /\ stack = c :: st /\ corr c st ks' /\ key_close k = Some delim /\ delim <> []).
        { intros d delim -> ->. destruct (corr_pop _ _ _ C) as (k & ks' & c & st & A & B & D & F & G). exists k, ks', c, st. repeat split; auto. apply (ok_keys _ OK k d G). }
        destruct S as [d G T|d Ec Et|d Ec N Et|_|d Ec Q M I|H|d Ec Q N1 N2 Sh|d s Ec Hs Ns W].
        * destruct (loop (as_pairs l y) _ _ _ _ _) as [y' r'] eqn:E'. injection E as <- <-.
          destruct (IH _ _ (w :: ks) _ _ _ _ _ (corr_push _ _ _ _ _ C G) E') as (ks' & R & A). exists ks'. split.
          -- eapply runs_open; eauto; [unfold key_close; now rewrite G|]. eapply corr_top; eauto.
          -- eapply after_weaken; eauto; [lia|discriminate].
        * destruct (Pop_case d w Ec Et) as (k & ks' & c & st & -> & -> & C' & Kc & Nd).
          destruct (loop (as_pairs l y) _ _ _ _ _) as [y' r'] eqn:E'. injection E as <- <-.
          destruct (IH _ _ _ _ _ _ _ _ C' E') as (ks2 & R & A). exists ks2. split; [eapply runs_close; eauto|]. eapply after_weaken; eauto; [lia|discriminate].
        * destruct (IH _ _ _ _ _ _ _ _ C E) as (ks' & R & A). exists ks'. split; auto. eapply after_weaken; eauto; [lia|discriminate].
        * injection E as <- <-. exists ks. split; [constructor|reflexivity].
        * injection E as <- <-. exists ks. split; [constructor|reflexivity].
        * destruct (IH _ _ _ _ _ _ _ _ C E) as (ks' & R & A). exists ks'. split; auto. eapply after_weaken; eauto; [lia|discriminate].
        * injection E as <- <-. exists ks. split; [constructor|]. cbn. repeat split; auto; [lia|discriminate].
        * subst cur. pose proof (corr_in_table _ _ _ C) as IT. assert (Ns0 : s <> []).
          { destruct IT as [k IT]. destruct Hs as [->|[-> H]]; auto. apply (ok_keys _ OK k d IT). }
          assert (Ls : 0 < length s) by (destruct s; [congruence|cbn; lia]).
          destruct (lookup_truncated d s IT Hs) as [[Ep Es]|Ep]; rewrite Ep in E.
          -- destruct (Pop_case d s eq_refl Es) as (k & ks' & c & st & -> & -> & C' & Kc & Nd). injection E as <- <-.
             exists ks'. split; [eapply runs_close; eauto; constructor|]. cbn. repeat split; auto; [lia|discriminate].
          -- injection E as <- <-. exists ks. split; [constructor|]. cbn. repeat split; auto; [lia|discriminate].
  Qed.
  Local Ltac done0 := eexists _, _; split; [reflexivity|]; split; auto; fail.
  Lemma delimiter_run_spec text : forall fuel cur stack ks buffer escaped consumed, corr cur stack ks -> S (length text - consumed) < S fuel ->
    exists ys e, delimiter_run is_bytes table text fuel cur stack buffer escaped consumed = (ys, e) /\ nested key_close key_quoting ks ys /\ (e = None \/ e = Some SyntaxError).
  Proof.
    induction fuel as [|fuel IH]; intros cur stack ks buffer escaped consumed C F; [lia|]. cbn [delimiter_run].
    destruct (C32_multisplit_is_the_split (skipn consumed text) (Some (all_tokens is_bytes table)) AsPairs (Some (-1)%Z) false true) as (l & y & Sp & ->);
      [split; [apply tokens_nonnil|apply tokens_nonempty]|].
    cbn in Sp. change (map (fun p : str * str => Two (fst p) (snd p)) l ++ [Two y []]) with (as_pairs l y).
    destruct (loop (as_pairs l y) cur stack buffer escaped consumed) as [ys r] eqn:E.
    destruct (loop_spec l y (splits_toks_nonempty _ _ _ _ tokens_nonempty Sp) _ _ _ _ _ _ _ _ C E) as (ks' & R & A).
    assert (Z : nested key_close key_quoting ks ys) by (rewrite <- (app_nil_r ys); eapply runs_nested; eauto; constructor).
    destruct r as [b e|e|c st b e n]; cbn in A.
    - destruct (is_nil b); [done0|]. destruct (negb (is_nil e)); [done0|]. destruct (concat b) eqn:CB; [cbn [is_nil]; done0|]. cbn [is_nil].
      eexists _, _. split; [reflexivity|]. split; auto. apply (runs_nested _ _ _ [(c :: l0, [], [])] R). apply nested_text. discriminate.
    - subst e. done0.
    - destruct A as (C' & Lt & Nl). destruct (IH c st ks' b e n C') as (ys' & e' & -> & N' & E').
      + assert (consumed < length text); [|lia]. destruct (Nat.lt_ge_cases consumed (length text)); auto. exfalso.
        rewrite skipn_all2 in Sp by auto. apply Nl. inversion Sp; subst; auto.
        match goal with Q : _ ++ _ ++ _ = [] |- _ => rename Q into E0 end.
        apply app_eq_nil in E0. destruct E0 as [_ E0]. apply app_eq_nil in E0. destruct E0 as [-> _].
        match goal with Q : one_split _ _ [] _ |- _ => destruct Q as [I _] end.
        pose proof tokens_nonempty as NE. rewrite Forall_forall in NE. exfalso. exact (NE _ I eq_refl).
      + eexists _, _. split; [reflexivity|]. split; auto. exact (runs_nested _ _ _ _ R N').
  Qed.
  Lemma enter_state_corr state : forall cur stack ks cur' stack', corr cur stack ks -> enter_state is_bytes table state cur stack = Ok (cur', stack') -> corr cur' stack' (rev state ++ ks).
  Proof.
    induction state as [|k state IH]; intros cur stack ks cur' stack' C E; cbn [enter_state] in E; [injection E as <- <-; exact C|].
    destruct (lookup_has_shape cur k (corr_in_table _ _ _ C)); try discriminate. cbn [rev]. rewrite <- app_assoc. eapply IH; [|exact E]. now apply corr_push.
  Qed.
End Table.
