(** C108, C109: the arguments of split_quoted_strings and split_delimiters; Delimiter objects. *)
From Verif Require Import PyBase PyStr PyStrProof SplitModel SplitProof DelimModel DelimSpec DelimProof DelimProps TypedModel DargModel DargSpec.

Lemma kind_eqb_refl k : kind_eqb k k = true. Proof. destruct k; reflexivity. Qed.
Lemma kind_eqb_other k : kind_eqb k (other k) = false. Proof. destruct k; reflexivity. Qed.
Lemma kind_eqb_iff k k' : kind_eqb k k' = true <-> k = k'. Proof. destruct k, k'; cbn; split; congruence. Qed.
Lemma check_each_texts k l q : texts k l q -> check_each k l = if existsb is_nil q then Err ValueError else Ok q.
Proof.
  induction 1 as [|o v l q (c & ->) _ IH]; [reflexivity|]. cbn [check_each existsb]. rewrite kind_eqb_refl, IH. destruct (is_nil v); [reflexivity|]. cbn [orb]. destruct (existsb is_nil q); reflexivity.
Qed.
Lemma check_each_inv k l r : check_each k l = r -> match r with Ok q => texts k l q | Err e => e = TypeError \/ e = ValueError end.
Proof.
  revert r. induction l as [|o l IH]; intros r <-; [constructor|]. cbn [check_each]. destruct o; auto. destruct (kind_eqb k k0) eqn:K; auto. apply kind_eqb_iff in K. subst k0. destruct (is_nil s) eqn:N; auto.
  specialize (IH _ eq_refl). destruct (check_each k l) as [q|e]; cbn [rmap]; [|exact IH]. constructor; eauto.
Qed.
Lemma texts_chars k v : texts k (map (fun c => OText k None [c]) v) (map (fun c => [c]) v).
Proof. induction v; cbn; constructor; eauto. Qed.
Lemma marks_strings k o q : strings k o q -> marks k o = if existsb is_nil q then Err ValueError else Ok (q, true).
Proof.
  intros [(l & -> & T)|[(c & v & -> & ->)|(k' & c & -> & ->)]]; unfold marks; cbn [iterate rbind].
  - rewrite (check_each_texts _ _ _ T). destruct (existsb is_nil q); reflexivity.
  - destruct k; cbn [iterate rbind]; rewrite (check_each_texts _ _ _ (texts_chars _ v)); destruct (existsb _ _); reflexivity.
  - destruct k, k'; reflexivity.
Qed.
Lemma marks_inv k o r : marks k o = r -> match r with Ok (q, true) => strings k o q | Ok (q, false) => q = [] | Err e => e = TypeError \/ e = ValueError end.
Proof.
  intros <-. unfold marks. set (o' := match o with OText KBytes _ v => _ | _ => _ end).
  assert (S : forall q, strings k o' q -> strings k o q).
  { intros q. subst o'. destruct o as [[|] c v| | | |]; auto. destruct k; auto. intros [(l & E & T)|[(c' & v' & E & _)|(k' & c' & E & _)]]; try discriminate. right. left. exists c, v. split; auto.
    injection E as <-. clear - T. revert q T. induction v; intros q T; inversion T as [|x y ? ? (c' & Q) T']; subst; [reflexivity|]. injection Q as _ <-. cbn. f_equal. auto. }
  destruct (iterate o') as [l|e] eqn:I; cbn [rbind].
  - pose proof (check_each_inv k l _ eq_refl) as C. destruct (check_each k l) as [q|e]; cbn [rmap]; [|exact C].
    clearbody o'. destruct o' as [k' c v| |l'|l'|]; cbn in I; try discriminate.
    + destruct k'; injection I as <-.
      * apply S. destruct k.
        -- right. left. exists c, v. split; auto. clear - C. revert q C. induction v; intros q C; inversion C as [|x y ? ? (c' & E) C']; subst; [reflexivity|]. injection E as _ <-. cbn. f_equal. auto.
        -- destruct v as [|x v]; [inversion C; subst; right; right; eauto|]. inversion C as [|? ? ? ? (c' & E)]. discriminate.
      * destruct v as [|x v]; [inversion C; subst; apply S; right; right; eauto|]. inversion C as [|? ? ? ? (c' & E)]. discriminate.
    + injection I as <-. apply S. left. eauto.
    + reflexivity.
  - assert (e = TypeError); [|auto]. destruct o' as [[|] ? ?| | | |]; cbn in I; congruence.
Qed.

Section C108.
  Context (same : obj -> obj -> bool) (EQ : equality_ok same).
  Definition not_text (o : obj) : Prop := forall k' c' b, o <> OText k' c' b.
  Lemma same_text k c a k' c' b : same (OText k c a) (OText k' c' b) = kind_eqb k k' && str_eqb a b.
  Proof. apply EQ. Qed.
  Lemma same_other k c a o : not_text o -> same o (OText k c a) = false.
  Proof. intros N. apply EQ, N. Qed.
  Lemma is_default_escape k o : same o (default_escape (other k)) || is_none o = true <-> o = ONone \/ exists c, o = OText (other k) c backslash.
  Proof.
    unfold default_escape. destruct o as [k' c a| |l|l|b]; try (rewrite same_other by (intros ? ? ? ?; discriminate)); cbn.
    - rewrite same_text, orb_false_r, andb_true_iff, kind_eqb_iff, str_eqb_iff. split; [intros (-> & ->); eauto|]. intros [?|(c' & E)]; [discriminate|]. injection E as -> _ ->. auto.
    - split; auto.
    - split; [discriminate|]. intros [?|(? & ?)]; discriminate.
    - split; [discriminate|]. intros [?|(? & ?)]; discriminate.
    - split; [discriminate|]. intros [?|(? & ?)]; discriminate.
  Qed.
  Lemma texts_same k l : forall q q', texts k l q -> texts k l q' -> q = q'.
  Proof. induction l; intros q q' H H'; inversion H as [|? ? ? ? (? & ?)]; inversion H' as [|? ? ? ? (? & ?)]; subst; [reflexivity|]. f_equal; [congruence|auto]. Qed.
  Lemma strings_same k o q q' : strings k o q -> strings k o q' -> q = q'.
  Proof.
    intros [(l & -> & T)|[(c & v & -> & ->)|(k' & c & -> & ->)]] [(l' & E & T')|[(c' & v' & E & ->)|(k'' & c' & E & ->)]]; try discriminate; try (injection E; intros; subst; reflexivity).
    injection E as <-. eapply texts_same; eauto.
  Qed.
  Lemma split_quoted_ok_or_value b s q e m st : match split_quoted_strings b s q e m st with Ok _ => True | Err x => x = ValueError end.
  Proof.
    unfold split_quoted_strings. repeat match goal with |- context [if ?c then _ else _] => destruct c; [reflexivity|] end. destruct (multisplit _ _ _ _ _ _ _); exact I.
  Qed.
  Lemma quotes_default k o q : quotes_arg same k o q -> (if same o (default_quotes (other k)) || is_none o then Ok (default_marks, true) else marks k o) = (if existsb is_nil q then Err ValueError else Ok (q, true)).
  Proof.
    unfold quotes_arg. destruct (same o (default_quotes (other k))); cbn [orb]; [intros ->; reflexivity|]. intros [(-> & ->)|S]; [reflexivity|].
    assert (N : is_none o = false) by (destruct S as [(? & -> & _)|[(? & ? & -> & _)|(? & ? & -> & _)]]; reflexivity). rewrite N. apply marks_strings, S.
  Qed.

  (** With arguments of the right types the result is that of DelimModel.v, on which C39 is stated (and
      C39_errors says when that is a ValueError). *)
  Theorem C108_split_quoted_strings k s quotes escape multi state q e m st :
    quotes_arg same k quotes q -> multiline_arg k multi m -> escape_arg k escape m e -> state_arg k state st ->
    split_quoted_strings_py same k s quotes escape multi state = split_quoted_strings (is_bytes_kind k) s q e m st.
  Proof.
    intros Q M E S. unfold split_quoted_strings_py. rewrite (quotes_default k quotes q Q). unfold split_quoted_strings.
    destruct (existsb is_nil q) eqn:Q0; [reflexivity|]. cbn [rbind].
    set (multi' := if is_none multi then OSeq [] else multi).
    assert (M' : strings k multi' m). { subst multi'. destruct M as [(-> & ->)|M]; [left; exists []; split; [reflexivity|constructor]|]. destruct multi; try exact M. destruct M as [(? & ? & _)|[(? & ? & ? & _)|(? & ? & ? & _)]]; discriminate. }
    clearbody multi'. set (escape' := if same escape (default_escape (other k)) || is_none escape then default_escape k else escape).
    assert (E' : (exists c, escape' = OText k c e) \/ m <> [] /\ truth escape' = false /\ e = []).
    { subst escape'. destruct (same escape _ || _) eqn:D.
      - apply is_default_escape in D. left. exists None. unfold default_escape. f_equal. destruct E as [(_ & ->)|[(c & ->)|(N & _ & T & _)]]; [reflexivity| |].
        + destruct D as [?|(c' & [= Hk _ _])]; [discriminate|]. destruct k; discriminate Hk.
        + destruct D as [->|(c' & ->)]; [congruence|discriminate T].
      - destruct E as [(H & _)|[?|(_ & H)]]; [apply is_default_escape in H; congruence|auto|auto]. }
    assert (T : truth multi' = negb (is_nil m)).
    { destruct M' as [(l & -> & T)|[(c & v & -> & ->)|(k' & c & -> & ->)]]; cbn; [inversion T; reflexivity|destruct v; reflexivity|reflexivity]. }
    assert (MM : (if truth multi' then marks k multi' else match escape' with OText k' _ _ => if kind_eqb k k' then match multi' with OOther _ => Err TypeError | _ => Ok ([], true) end else Err TypeError | _ => Err TypeError end)
                 = if existsb is_nil m then Err ValueError else Ok (m, true)).
    { rewrite T. destruct (is_nil m) eqn:N; cbn [negb]; [|apply marks_strings, M']. destruct m; [|discriminate]. destruct E' as [(c & ->)|(? & _)]; [|congruence]. rewrite kind_eqb_refl.
      destruct M' as [(l & -> & _)|[(? & ? & -> & _)|(? & ? & -> & _)]]; reflexivity. }
    rewrite MM. destruct (existsb is_nil m) eqn:M0; [reflexivity|]. cbn [rbind]. destruct (is_nil (q ++ m)) eqn:QM; [reflexivity|].
    assert (SS : match state with ONone => Ok [] | OText k' _ v => if is_nil v then Ok [] else if kind_eqb k k' then if str_in v (q ++ m) then Ok v else Err ValueError else Err TypeError | _ => Err TypeError end
                 = if negb (is_nil st) && negb (str_in st (q ++ m)) then Err ValueError else Ok st).
    { destruct S as [([->|(k' & c & ->)] & ->)|(c & ->)]; [reflexivity..|]. rewrite kind_eqb_refl. destruct st; [reflexivity|]. cbn [is_nil negb andb]. destruct (str_in _ _); reflexivity. }
    rewrite SS. destruct (negb (is_nil st) && negb (str_in st (q ++ m))) eqn:ST; [reflexivity|]. cbn [rbind negb].
    destruct (has_repeats q) eqn:R1; [reflexivity|]. destruct (has_repeats m) eqn:R2; [reflexivity|]. destruct (existsb (fun x => str_in x m) q) eqn:R3; [reflexivity|].
    assert (EE : (if truth escape' then match escape' with OText k' _ e0 => if kind_eqb k k' then Ok e0 else Err TypeError | _ => Err TypeError end else Ok []) = Ok e).
    { destruct E' as [(c & ->)|(_ & -> & ->)]; [|reflexivity]. cbn. rewrite kind_eqb_refl. destruct e; reflexivity. }
    rewrite EE. cbn [rbind]. rewrite Q0, M0, ST. reflexivity.
  Qed.
  (** Nothing else is accepted: anything but TypeError and ValueError comes from arguments of the
      right types. *)
  Theorem C108_split_quoted_strings_only k s quotes escape multi state r :
    split_quoted_strings_py same k s quotes escape multi state = r ->
    match r with
    | Ok g => exists q e m st, quotes_arg same k quotes q /\ multiline_arg k multi m /\ escape_arg k escape m e /\ state_arg k state st /\ split_quoted_strings (is_bytes_kind k) s q e m st = Ok g
    | Err x => x = TypeError \/ x = ValueError
    end.
  Proof.
    intros H. cut (match split_quoted_strings_py same k s quotes escape multi state with
       | Ok g => exists q e m st, quotes_arg same k quotes q /\ multiline_arg k multi m /\ escape_arg k escape m e /\ state_arg k state st
       | Err x => x = TypeError \/ x = ValueError end).
    { rewrite H. destruct r as [g|x]; [|auto]. intros (q & e & m & st & A & B & C & D). exists q, e, m, st. rewrite (C108_split_quoted_strings k s _ _ _ _ _ _ _ _ A B C D) in H. auto 6. }
    clear H r. unfold split_quoted_strings_py.
    set (qr := if same quotes _ || _ then _ else _). assert (Q : match qr with Ok (q, true) => quotes_arg same k quotes q | Ok (q, false) => True | Err e => e = TypeError \/ e = ValueError end).
    { subst qr. unfold quotes_arg. destruct (same quotes (default_quotes (other k))); cbn [orb]; [reflexivity|]. destruct (is_none quotes) eqn:N; [left; destruct quotes; try discriminate; auto|].
      pose proof (marks_inv k quotes _ eq_refl) as M. destruct (marks k quotes) as [[q [|]]|e]; auto. }
    destruct qr as [[q ql]|x]; cbn [rbind]; [|exact Q].
    set (multi' := if is_none multi then OSeq [] else multi).
    assert (MA : forall m, strings k multi' m -> multiline_arg k multi m).
    { intros m S. subst multi'. destruct multi; try (right; exact S). left. split; auto. destruct S as [(l & [= <-] & T)|[(? & ? & ? & _)|(? & ? & ? & _)]]; try discriminate. inversion T. reflexivity. }
    assert (NN : multi' <> ONone) by (subst multi'; destruct multi; discriminate).
    set (escape' := if same escape (default_escape (other k)) || is_none escape then default_escape k else escape).
    set (mr := if truth multi' then marks k multi' else _).
    assert (M : match mr with Ok (m, true) => strings k multi' m /\ (truth multi' = false -> exists c e, escape' = OText k c e) /\ (truth multi' = true -> m <> []) | Ok (m, false) => True | Err e => e = TypeError \/ e = ValueError end).
    { subst mr. destruct (truth multi') eqn:T.
      - pose proof (marks_inv k multi' _ eq_refl) as MI. destruct (marks k multi') as [[m [|]]|e]; auto. split; auto. split; [discriminate|]. intros _ ->.
        destruct MI as [(l & E & TT)|[(c & v & E & V)|(k' & c & E & V)]]; rewrite E in T; [inversion TT; subst; discriminate|destruct v; discriminate|discriminate].
      - destruct escape' as [k' c e| | | |] eqn:E; auto. destruct (kind_eqb k k') eqn:K; auto. apply kind_eqb_iff in K. subst k'. clearbody multi'. destruct multi' as [k' c' v| |l|l|b]; auto; cbn in T; try discriminate.
        + destruct v; [|discriminate]. repeat split; [right; right; eauto|eauto|congruence].
        + congruence.
        + destruct l; [|discriminate]. split; [left; exists []; split; [reflexivity|constructor]|]. split; [eauto|discriminate]. }
    clearbody mr. destruct mr as [[m ml]|x]; cbn [rbind]; [|exact M]. destruct (is_nil (q ++ m)); [auto|].
    set (sr := match state with ONone => _ | _ => _ end).
    assert (S : match sr with Ok st => state_arg k state st | Err e => e = TypeError \/ e = ValueError end).
    { subst sr. destruct state as [k' c v| |l|l|b]; auto.
      - destruct v as [|x v]; [left; eauto|]. cbn [is_nil]. destruct (kind_eqb k k') eqn:K; auto. apply kind_eqb_iff in K. subst k'. destruct (str_in (x :: v) (q ++ m)); auto. right. eauto.
      - left. auto. }
    clearbody sr. destruct sr as [st|x]; cbn [rbind]; [|exact S]. destruct ql; cbn [negb]; [|auto]. destruct (has_repeats q); [auto|]. destruct ml; cbn [negb]; [|auto].
    destruct (has_repeats m); [auto|]. destruct (existsb (fun x => str_in x m) q); [auto|]. destruct M as (M1 & M2 & M3).
    set (er := if truth escape' then _ else _).
    assert (E : match er with Ok e => escape_arg k escape m e | Err x => x = TypeError end).
    { assert (ES : forall e, (exists c, escape' = OText k c e) \/ (m <> [] /\ truth escape' = false /\ e = []) -> escape_arg k escape m e).
      { intros e. subst escape'. unfold escape_arg. destruct (same escape _ || _) eqn:D.
        - apply is_default_escape in D. intros [(c & [= _ <-])|(_ & ? & _)]; [auto|discriminate].
        - intros [?|(A & B & C)]; auto. right. right. repeat split; auto. intros ->. cbn in D. rewrite orb_true_r in D. discriminate. }
      clearbody escape'. subst er. destruct (truth escape') eqn:T.
      - destruct escape' as [k' c e| | | |]; auto. destruct (kind_eqb k k') eqn:K; auto. apply kind_eqb_iff in K. subst k'. apply ES. eauto.
      - apply ES. destruct (truth multi') eqn:TM; [right; auto|]. destruct (M2 eq_refl) as (c & e & ->). left. exists c. destruct e; [reflexivity|discriminate]. }
    clearbody er. destruct er as [e|x]; cbn [rbind]; [|auto].
    pose proof (split_quoted_ok_or_value (is_bytes_kind k) s q e m st) as R. destruct (split_quoted_strings _ _ _ _ _ _) as [g|x]; [|auto]. exists q, e, m, st. auto 6.
  Qed.

  (** ** split_delimiters *)
  Lemma check_delims_arg k l t : Forall2 (delim_arg k) l t -> check_delims k l = Ok t.
  Proof.
    induction 1 as [|p [o d] l t (c1 & c2 & c3 & v & -> & A & B & C & D) _ IH]; [reflexivity|]. cbn [check_delims check_delim fst snd] in *. rewrite A, B, !kind_eqb_refl. cbn [negb andb rbind]. rewrite IH, C, D. destruct d. reflexivity.
  Qed.
  Lemma check_delims_inv k l r : check_delims k l = r -> match r with Ok t => Forall2 (delim_arg k) l t | Err e => e = TypeError end.
  Proof.
    revert r. induction l as [|[o [v|x]] l IH]; intros r <-; [constructor| |]; cbn [check_delims check_delim]; [|destruct o; reflexivity].
    destruct o as [k1 c1 o| | | |]; try reflexivity. destruct (kind_eqb k k1) eqn:K1; [|reflexivity]. cbn [negb]. apply kind_eqb_iff in K1. subst k1.
    destruct (v_close v) as [k2 c2 c| | | |] eqn:VC; try reflexivity. destruct (v_escape v) as [k3 c3 e| | | |] eqn:VE; try reflexivity.
    destruct (kind_eqb k k2) eqn:K2; [|reflexivity]. destruct (kind_eqb k k3) eqn:K3; [|reflexivity]. apply kind_eqb_iff in K2, K3. subst k2 k3. cbn [andb rbind].
    specialize (IH _ eq_refl). destruct (check_delims k l) as [t|x]; cbn [rmap]; [|exact IH]. constructor; [|exact IH]. exists c1, c2, c3, v. cbn. auto.
  Qed.
  Lemma state_keys_arg k o keys : state_arg2 k o keys -> state_keys k o = Ok (Some keys).
  Proof.
    assert (F : forall l ks, texts k l ks -> fold_right (fun o acc => match o, acc with OText k' _ v, Some t => if kind_eqb k k' then Some (v :: t) else None | _, _ => None end) (Some []) l = Some ks).
    { induction 1 as [|x v l ks (c & ->) _ IH]; [reflexivity|]. cbn [fold_right]. rewrite IH, kind_eqb_refl. reflexivity. }
    unfold state_keys. intros [(-> & ->)|[(l & [->| ->] & T)|(c & v & -> & ->)]].
    - reflexivity.
    - destruct l as [|x l]; [inversion T; reflexivity|]. cbn [truth is_nil negb iterate rbind]. now rewrite (F _ _ T).
    - cbn [truth iterate rbind]. now rewrite (F _ _ T).
    - destruct v as [|x v]; [reflexivity|]. cbn [truth is_nil negb]. destruct k; cbn [iterate rbind]; now rewrite (F _ _ (texts_chars _ (x :: v))).
  Qed.
  Lemma state_keys_inv k o r : state_keys k o = r -> match r with Ok (Some keys) => state_arg2 k o keys | Ok None => True | Err e => e = TypeError end.
  Proof.
    intros <-. unfold state_keys. destruct (truth o) eqn:T; [|left; auto].
    assert (F : forall l ks, fold_right (fun o acc => match o, acc with OText k' _ v, Some t => if kind_eqb k k' then Some (v :: t) else None | _, _ => None end) (Some []) l = Some ks -> texts k l ks).
    { induction l as [|x l IH]; intros ks; cbn [fold_right]; [intros [= <-]; constructor|]. destruct x as [k' c v| | | |]; try discriminate. destruct (fold_right _ _ l) as [t|]; [|discriminate].
      destruct (kind_eqb k k') eqn:K; [|discriminate]. apply kind_eqb_iff in K. subst k'. intros [= <-]. constructor; eauto. apply IH. reflexivity. }
    assert (C : forall k' v ks, v <> [] -> texts k (map (fun c => OText k' None [c]) v) ks -> k' = k /\ ks = map (fun c => [c]) v).
    { intros k' v ks N TT. destruct v as [|x v]; [congruence|]. assert (k' = k) by (inversion TT as [|? ? ? ? (? & E)]; congruence). subst. split; auto.
      clear N. revert ks TT. generalize (x :: v) as w. induction w; intros ks TT; inversion TT as [|? ? ? ? (? & E) TT']; subst; [reflexivity|]. injection E as _ <-. cbn. f_equal. auto. }
    assert (B : forall v : str, v <> [] -> texts k (map (fun _ => an_int) v) [] -> False) by (intros [|? ?] N TT; [congruence|inversion TT]).
    assert (ne : forall v : str, negb (is_nil v) = true -> v <> []) by (intros [|? ?]; discriminate).
    destruct o as [[|] c v| |l|l|b]; cbn [iterate rbind]; cbn in T; try discriminate.
    - destruct (fold_right _ _ _) as [ks|] eqn:E; [|exact I]. apply F in E. destruct (C _ _ _ (ne v T) E) as (<- & ->). right. right. eauto.
    - destruct (fold_right _ _ _) as [ks|] eqn:E; [|exact I]. apply F in E. destruct (C _ _ _ (ne v T) E) as (<- & ->). right. right. eauto.
    - destruct (fold_right _ _ _) as [ks|] eqn:E; [|exact I]. right. left. exists l. auto.
    - destruct (fold_right _ _ _) as [ks|] eqn:E; [|exact I]. right. left. exists l. auto.
    - reflexivity.
  Qed.
  (** The default mapping, for str and for bytes: three brackets, which nest, and two quote marks, which end at the end of the line and know the backslash *)
  Theorem C108_default_delimiters k :
    Forall2 (fun p t => let '(open, close, quote) := t in
        fst p = OText k None (u open) /\
        exists d, snd p = inl d /\ v_close d = OText k None (u close) /\ v_escape d = OText k None (if quote : bool then u "\" else []) /\ v_quoting d = quote /\ v_multiline d = negb quote /\
          Delimiter_py same (inl (OText k None (u close))) (if quote then OText k None (u "\") else OText KStr None []) (negb quote) quote = Ok d)
      (default_mapping k) [("(", ")", false); ("[", "]", false); ("{", "}", false); ("'", "'", true); ("""", """", true)]%string /\
    Forall2 (delim_arg k) (default_mapping k) default_delimiters.
  Proof.
    split.
    - destruct k; repeat (apply Forall2_cons; [split; [reflexivity|eexists; split; [reflexivity|]; repeat split; unfold Delimiter_py; cbn [truth]; rewrite ?same_text; reflexivity]|]); apply Forall2_nil.
    - repeat (apply Forall2_cons; [do 4 eexists; repeat split; reflexivity|]); apply Forall2_nil.
  Qed.
  Definition default_given (d : option mapping) : Prop := d = None \/ exists m, d = Some m /\ (mapping_eq same m (default_mapping KStr) = true \/ mapping_eq same m (default_mapping KBytes) = true).
  (** With arguments of the right types the result is that of DelimModel.v (C40); None and the
      default mapping, of either type, stand for the default of the type of s. *)
  Theorem C108_split_delimiters k s delims state keys : state_arg2 k state keys ->
    (default_given delims -> split_delimiters_py same k s delims state = split_delimiters (is_bytes_kind k) s None keys) /\
    (forall m t, delims = Some m -> ~ default_given delims -> Forall2 (delim_arg k) m t -> split_delimiters_py same k s delims state = split_delimiters (is_bytes_kind k) s (Some t) keys).
  Proof.
    intros S. apply state_keys_arg in S. split.
    - intros D. unfold split_delimiters_py. set (d := match delims with None => _ | _ => _ end). assert (E : d = None).
      { subst d. destruct D as [->|(m & -> & D)]; [reflexivity|]. destruct (mapping_eq same m _); [reflexivity|]. destruct D as [D|D]; [discriminate|]. now rewrite D. }
      rewrite E. cbn [rbind]. rewrite S. reflexivity.
    - intros m t -> N F. unfold split_delimiters_py. destruct (mapping_eq same m (default_mapping KStr)) eqn:D1; [destruct N; right; eauto|]. destruct (mapping_eq same m (default_mapping KBytes)) eqn:D2; [destruct N; right; eauto|].
      cbn [orb]. unfold split_delimiters. rewrite (check_delims_arg k m t F).
      assert (L : is_nil m = is_nil t) by (inversion F; reflexivity). rewrite L. destruct (is_nil t) eqn:Nt; [reflexivity|].
      assert (B : existsb (fun p => same (fst p) (OText k None backslash)) m = str_in backslash (openers t)).
      { clear - F EQ. induction F as [|p [o d] l t (c1 & c2 & c3 & v & -> & _) _ IH]; [reflexivity|]. cbn [existsb fst openers map]. rewrite same_text, kind_eqb_refl, IH. unfold str_in. cbn [existsb]. f_equal. cbn [andb]. destruct (str_eqb o backslash) eqn:E.
        - apply str_eqb_iff in E. subst. symmetry. apply str_eqb_iff. reflexivity.
        - symmetry. apply not_true_iff_false. intros E'. apply str_eqb_iff in E'. subst. discriminate. }
      rewrite B. destruct (str_in backslash (openers t)) eqn:Bt; [reflexivity|]. cbn [rbind]. destruct (existsb (fun o => str_in o (nested_closers t)) (openers t)) eqn:X; [reflexivity|]. cbn [rbind]. rewrite S. cbn [rbind].
      rewrite ?Nt, ?Bt, ?X. reflexivity.
  Qed.
  Lemma split_delimiters_ok_or_value b s t keys : match split_delimiters b s t keys with Ok _ => True | Err x => x = ValueError end.
  Proof.
    unfold split_delimiters. repeat match goal with |- context [if ?c then _ else _] => destruct c; [reflexivity|] end.
    assert (G : forall tb ks c st, match enter_state b tb ks c st with Ok _ => True | Err x => x = ValueError end).
    { intros tb. induction ks as [|x ks IH]; intros c st; cbn [enter_state]; [exact I|]. destruct (lookup b tb c x); try reflexivity. apply IH. }
    specialize (G (match t with Some t0 => t0 | None => default_delimiters end) keys None []). destruct (enter_state _ _ _ _ _) as [[c st]|x]; auto.
  Qed.
  (** Nothing else is accepted. *)
  Theorem C108_split_delimiters_only k s delims state r : split_delimiters_py same k s delims state = r ->
    match r with
    | Ok g => exists keys, state_arg2 k state keys /\
        (default_given delims /\ split_delimiters (is_bytes_kind k) s None keys = Ok g \/
         exists m t, delims = Some m /\ ~ default_given delims /\ Forall2 (delim_arg k) m t /\ split_delimiters (is_bytes_kind k) s (Some t) keys = Ok g)
    | Err x => x = TypeError \/ x = ValueError
    end.
  Proof.
    intros H. cut (match split_delimiters_py same k s delims state with
       | Ok g => exists keys, state_arg2 k state keys /\ (default_given delims \/ exists m t, delims = Some m /\ ~ default_given delims /\ Forall2 (delim_arg k) m t)
       | Err x => x = TypeError \/ x = ValueError end).
    { rewrite H. destruct r as [g|x]; [|auto]. intros (keys & S & D). exists keys. split; [exact S|]. destruct (C108_split_delimiters k s delims state keys S) as (C1 & C2).
      destruct D as [D|(m & t & E & N & F)]; [left; split; auto; rewrite <- (C1 D); exact H|]. right. exists m, t. repeat split; auto. rewrite <- (C2 m t E N F). exact H. }
    clear H r. unfold split_delimiters_py. set (d := match delims with None => _ | _ => _ end).
    assert (D : d = None /\ default_given delims \/ exists m, d = Some m /\ delims = Some m /\ ~ default_given delims).
    { subst d. destruct delims as [m|]; [|left; split; [reflexivity|left; reflexivity]]. destruct (mapping_eq same m (default_mapping KStr)) eqn:D1; [left; split; [reflexivity|right; eauto]|].
      destruct (mapping_eq same m (default_mapping KBytes)) eqn:D2; [left; split; [reflexivity|right; eauto]|]. right. exists m. repeat split; auto. intros [?|(m' & [= <-] & [?|?])]; congruence. }
    clearbody d. pose proof (state_keys_inv k state _ eq_refl) as K. destruct D as [(-> & D)|(m & -> & -> & N)].
    - cbn [rbind]. destruct (state_keys k state) as [[keys|]|x]; cbn [rbind]; [|auto|auto]. pose proof (split_delimiters_ok_or_value (is_bytes_kind k) s None keys) as R. destruct (split_delimiters _ _ _ _); [|auto]. eauto.
    - destruct (is_nil m); [cbn; auto|]. destruct (existsb _ m); [cbn; auto|]. pose proof (check_delims_inv k m _ eq_refl) as C. destruct (check_delims k m) as [t|x]; cbn [rbind]; [|auto].
      destruct (existsb _ (openers t)); [cbn; auto|]. cbn [rbind]. destruct (state_keys k state) as [[keys|]|x]; cbn [rbind]; [|auto|auto].
      pose proof (split_delimiters_ok_or_value (is_bytes_kind k) s (Some t) keys) as R. destruct (split_delimiters _ _ _ _); [|auto]. exists keys. split; auto. right. eauto 6.
  Qed.
End C108.
Print Assumptions C108_split_quoted_strings.
Print Assumptions C108_split_quoted_strings_only.
Print Assumptions C108_split_delimiters.
Print Assumptions C108_split_delimiters_only.

(** an == to try things with *)
Definition text_same (a b : obj) : bool := match a, b with OText k _ a, OText k' _ b => kind_eqb k k' && str_eqb a b | _, _ => false end.
Fixpoint all2 (f : obj -> obj -> bool) (l l' : list obj) : bool := match l, l' with [], [] => true | a :: l, b :: l' => f a b && all2 f l l' | _, _ => false end.
Definition some_same (a b : obj) : bool := match a, b with OText _ _ _, OText _ _ _ => text_same a b | OSeq l, OSeq l' => all2 text_same l l' | ONone, ONone => true | _, _ => false end.
Lemma some_same_ok : equality_ok some_same.
Proof. split; [reflexivity|]. intros k c a o N. destruct o; try (split; reflexivity). destruct (N k0 cls s eq_refl). Qed.
(** "quotes is an iterable of unique quote delimiters", but an iterator is not accepted. *)
Theorem C108_iterator_refuted same k s escape state : equality_ok same -> (forall l l', same (OIter l) (OSeq l') = false) ->
  exists e, split_quoted_strings_py same k s (OIter [OText k None (u """")]) escape (OSeq []) state = Err e.
Proof.
  intros EQ H. destruct (split_quoted_strings_py same k s _ escape (OSeq []) state) as [g|e] eqn:E; [|eauto]. exfalso.
  destruct (C108_split_quoted_strings_only same EQ k s _ _ _ _ _ E) as (q & e & m & st & Q & _). unfold quotes_arg, default_quotes in Q. rewrite H in Q.
  destruct Q as [(? & _)|[(? & ? & _)|[(? & ? & ? & _)|(? & ? & ? & _)]]]; discriminate.
Qed.
(** "escape must match s": not checked if there are multiline quotes and it is empty. *)
Theorem C108_escape_refuted same s : equality_ok same -> exists g,
  split_quoted_strings_py same KBytes s (OText KBytes None (u """")) (OText KStr None []) (OSeq [OText KBytes None (u "'")]) ONone = Ok g.
Proof.
  intros EQ. rewrite (C108_split_quoted_strings same EQ KBytes s _ _ _ _ [u """"] [] [u "'"] []).
  - destruct (split_quoted_strings _ _ _ _ _ _) as [g|e] eqn:E; [eauto|]. pose proof (split_quoted_ok_or_value (is_bytes_kind KBytes) s [u """"] [] [u "'"] []) as V. rewrite E in V. subst e.
    apply C39_errors in E. destruct E. repeat split; cbn; try (intros q [<-|[<-|[]]]; discriminate); try discriminate; auto.
    repeat constructor; cbn; intuition discriminate.
  - unfold quotes_arg. replace (same _ _) with false; [|symmetry; apply EQ; intros ? ? ? ?; discriminate]. right. right. left. eauto.
  - right. left. exists [OText KBytes None (u "'")]. split; [reflexivity|]. repeat constructor. eauto.
  - right. right. repeat split; discriminate.
  - left. auto.
Qed.
Print Assumptions C108_iterator_refuted.
Print Assumptions C108_escape_refuted.
Example C108_nonvacuous :
  quotes_arg some_same KBytes (default_quotes KStr) default_marks /\ multiline_arg KBytes (OText KBytes None (u "`")) [u "`"] /\ escape_arg KBytes ONone [u "`"] backslash /\ state_arg KBytes (OText KBytes (Some 1) (u "'")) (u "'") /\
  split_quoted_strings_py some_same KBytes (u "a'b`c`") (default_quotes KStr) ONone (OText KBytes None (u "`")) (OText KBytes (Some 1) (u "'")) = Ok ([([], u "a", u "'"); ([], u "b", []); (u "`", u "c", u "`")], None) /\
  split_quoted_strings_py some_same KStr (u "a") (OSeq [OText KBytes None (u "'")]) ONone ONone ONone = Err TypeError /\
  state_arg2 KStr (OIter [OText KStr None (u "(")]) [u "("] /\ default_given some_same (Some (rev (default_mapping KBytes))) /\
  split_delimiters_py some_same KStr (u "a)b") (Some (rev (default_mapping KBytes))) (OIter [OText KStr None (u "(")]) = Ok ([(u "a", [], u ")"); (u "b", [], [])], None) /\
  split_delimiters_py some_same KStr (u "a)b") (Some [(OText KStr None (u "<"), inl (mkDelim (OText KBytes None (u ">")) (OText KBytes None []) true false))]) ONone = Err TypeError.
Proof.
  split; [reflexivity|]. split; [right; right; left; exists None, (u "`"); split; reflexivity|]. split; [left; auto|]. split; [right; eauto|]. split; [vm_compute; reflexivity|]. split; [vm_compute; reflexivity|].
  split; [right; left; exists [OText KStr None (u "(")]; split; [auto|repeat constructor; eauto]|]. split; [right; eexists; split; [reflexivity|]; right; vm_compute; reflexivity|]. split; vm_compute; reflexivity.
Qed.

(** * C109: Delimiter objects *)
(** what the constructor accepts, and what the attributes are *)
Theorem C109_attributes same close escape multiline quoting d : Delimiter_py same (inl close) escape multiline quoting = Ok d <->
  same close (OText (match close with OText KBytes _ _ => KBytes | _ => KStr end) None [92%N]) = false /\ truth escape = quoting /\ (quoting = true \/ multiline = true) /\
  d = mkDelim close (if quoting then escape else OText (match close with OText KBytes _ _ => KBytes | _ => KStr end) None []) multiline quoting.
Proof.
  unfold Delimiter_py. set (k := match close with OText KBytes _ _ => KBytes | _ => KStr end). change backslash with [92%N]. destruct (same close _); [split; [discriminate|intros (? & _); discriminate]|].
  destruct (truth escape), quoting; cbn [Bool.eqb negb orb].
  - split; [intros [= <-]; auto|]. intros (_ & _ & _ & ->). reflexivity.
  - split; [discriminate|]. intros (_ & ? & _). discriminate.
  - split; [discriminate|]. intros (_ & ? & _). discriminate.
  - destruct multiline; cbn [negb]; [split; [intros [= <-]; auto|intros (_ & _ & _ & ->); reflexivity]|]. split; [discriminate|]. intros (_ & _ & [?|?] & _); discriminate.
Qed.
Theorem C109_errors same close escape multiline quoting x : Delimiter_py same close escape multiline quoting = Err x -> x = ValueError.
Proof. destruct close as [c|d]; cbn [Delimiter_py]; [|discriminate]. repeat match goal with |- context [if ?b then _ else _] => destruct b end; congruence. Qed.
(** Delimiter(d) and d.copy() are equal to d, whatever the other arguments. *)
Theorem C109_copy same d escape multiline quoting : (forall a, same a a = true) ->
  (exists d', Delimiter_py same (inr d) escape multiline quoting = Ok d' /\ delim_eq same d d' = true) /\ (exists d', delim_copy same d = Ok d' /\ delim_eq same d d' = true).
Proof.
  intros R. assert (E : delim_eq same d d = true) by (unfold delim_eq; rewrite !R, !Bool.eqb_reflx; reflexivity).
  split; exists d; (split; [destruct d; reflexivity|exact E]).
Qed.
(** == is an equivalence if that of the strings is, equal objects have equal hashes *)
Theorem C109_equality same : (forall a, same a a = true) -> (forall a b, same a b = same b a) -> (forall a b c, same a b = true -> same b c = true -> same a c = true) ->
  (forall a, delim_eq same a a = true) /\ (forall a b, delim_eq same a b = delim_eq same b a) /\ (forall a b c, delim_eq same a b = true -> delim_eq same b c = true -> delim_eq same a c = true).
Proof.
  intros R S T. unfold delim_eq. split; [|split].
  - intros a. now rewrite !R, !Bool.eqb_reflx.
  - intros a b. rewrite (S (v_close a)), (S (v_escape a)). destruct (v_quoting a), (v_quoting b), (v_multiline a), (v_multiline b); reflexivity.
  - intros a b c. rewrite !andb_true_iff, !Bool.eqb_true_iff. intros (((A & B) & C) & D) (((A' & B') & C') & D'). repeat split; eauto; congruence.
Qed.
Theorem C109_hash same hash hash_bool a b : (forall x y, same x y = true -> hash x = hash y) -> delim_eq same a b = true -> delim_hash hash hash_bool a = delim_hash hash hash_bool b.
Proof.
  intros H. unfold delim_eq, delim_hash. rewrite !andb_true_iff, !Bool.eqb_true_iff. intros (((A & B) & C) & D). rewrite (H _ _ A), (H _ _ B), C, D. reflexivity.
Qed.
(** Equal delimiters can take each other's place: split_delimiters keeps what it computed from an
    equal mapping (lru_cache), which makes no difference. *)
Theorem C109_interchangeable same k s m m' state : equality_ok same -> (forall a b, same a b = same b a) -> (forall a b c, same a b = true -> same b c = true -> same a c = true) ->
  Forall2 (fun p p' => same (fst p) (fst p') = true /\ value_eq same (snd p) (snd p') = true) m m' ->
  split_delimiters_py same k s (Some m) state = split_delimiters_py same k s (Some m') state.
Proof.
  intros EQ S T F.
  assert (SE : forall a b c, same a b = true -> same a c = same b c).
  { intros a b c H. destruct (same b c) eqn:E; [eauto|]. apply not_true_iff_false. intros H'. rewrite S in H. rewrite (T _ _ _ H H') in E. discriminate. }
  assert (DE : forall a b c, delim_eq same a b = true -> delim_eq same a c = delim_eq same b c).
  { intros a b c. unfold delim_eq. rewrite !andb_true_iff, !Bool.eqb_true_iff. intros (((A & B) & C) & D). now rewrite (SE _ _ _ A), (SE _ _ _ B), C, D. }
  assert (VE : forall a b c, value_eq same a b = true -> value_eq same a c = value_eq same b c) by (intros [a|a] [b|b] [c|c] H; cbn in *; auto; discriminate).
  assert (ME : forall d, mapping_eq same m d = mapping_eq same m' d).
  { intros d. unfold mapping_eq. assert (L : length m = length m') by (clear - F; induction F; cbn; congruence). rewrite L. f_equal. clear L. induction F as [|p p' l l' (A & B) F IH]; [reflexivity|]. cbn [forallb]. rewrite IH. f_equal.
    clear - SE VE A B. induction d as [|q d IH]; [reflexivity|]. cbn [existsb]. now rewrite IH, (SE _ _ _ A), (VE _ _ _ B). }
  assert (ST : forall o o', same o o' = true -> match o with OText kk _ a => exists c', o' = OText kk c' a | _ => not_text o' end).
  { intros o o' H. assert (G : not_text o -> not_text o') by (intros N k' c' b ->; rewrite (proj2 (proj2 EQ k' c' b o N)) in H; discriminate).
    destruct o as [kk c a| | | |]; try (apply G; intros ? ? ? ?; discriminate). destruct o' as [k' c' b| | | |]; try (exfalso; match type of H with same _ ?x = _ => assert (N : not_text x) by (intros ? ? ? ?; discriminate); pose proof (proj1 (proj2 EQ kk c a x N)) end; congruence).
    rewrite (proj1 EQ) in H. apply andb_prop in H. destruct H as (H1 & H2). apply kind_eqb_iff in H1. apply str_eqb_iff in H2. subst. eauto. }
  assert (NT : forall o, not_text o -> match o with OText _ _ _ => False | _ => True end) by (intros [kk c a| | | |] N; auto; exact (N kk c a eq_refl)).
  assert (CE : check_delims k m = check_delims k m').
  { clear ME. induction F as [|[o v] [o' v'] l l' (A & B) F IH]; [reflexivity|]. cbn [check_delims fst snd] in *. rewrite IH. f_equal. apply ST in A. destruct v as [v|v], v' as [v'|v']; cbn in B; try discriminate.
    - destruct o as [kk c a| | | |]; [destruct A as (c' & ->)|apply NT in A; destruct o'; try contradiction; reflexivity..]. cbn [check_delim]. destruct (kind_eqb k kk); [|reflexivity]. cbn [negb].
      unfold delim_eq in B. rewrite !andb_true_iff, !Bool.eqb_true_iff in B. destruct B as (((B1 & B2) & B3) & B4). rewrite B3, B4. apply ST in B1, B2.
      destruct (v_close v) as [k2 c2 x2| | | |]; [destruct B1 as (c2' & ->)|apply NT in B1; destruct (v_close v'); try contradiction; reflexivity..].
      destruct (v_escape v) as [k3 c3 x3| | | |]; [destruct B2 as (c3' & ->)|apply NT in B2; destruct (v_escape v'); try contradiction; reflexivity..]. reflexivity.
    - destruct o as [kk c a| | | |]; [destruct A as (c' & ->); reflexivity|apply NT in A; destruct o'; try contradiction; reflexivity..]. }
  assert (BE : existsb (fun p => same (fst p) (OText k None backslash)) m = existsb (fun p => same (fst p) (OText k None backslash)) m').
  { clear ME CE. induction F as [|p p' l l' (A & B) F IH]; [reflexivity|]. cbn [existsb]. now rewrite IH, (SE _ _ _ A). }
  unfold split_delimiters_py. rewrite !ME. destruct (mapping_eq same m' _ || mapping_eq same m' _); [reflexivity|]. rewrite CE, BE. assert (N : is_nil m = is_nil m') by (inversion F; reflexivity). rewrite N. reflexivity.
Qed.
Print Assumptions C109_attributes.
Print Assumptions C109_errors.
Print Assumptions C109_copy.
Print Assumptions C109_equality.
Print Assumptions C109_hash.
Print Assumptions C109_interchangeable.
Example C109_nonvacuous :
  Delimiter_py some_same (inl (OText KBytes None (u ")"))) (OText KStr None []) true false = Ok (mkDelim (OText KBytes None (u ")")) (OText KBytes None []) true false) /\
  Delimiter_py some_same (inl (OText KBytes (Some 3) (u "\"))) (OText KStr None []) true false = Err ValueError /\
  delim_eq some_same (mkDelim (OText KStr None (u ")")) (OText KStr None []) true false) (mkDelim (OText KStr (Some 1) (u ")")) (OText KStr None []) true false) = true /\
  delim_eq some_same (mkDelim (OText KStr None (u ")")) (OText KStr None []) true false) (mkDelim (OText KBytes None (u ")")) (OText KBytes None []) true false) = false.
Proof. repeat split. Qed.
Print Assumptions C108_default_delimiters.
