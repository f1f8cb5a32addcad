(** C129: which orders of the lines modifiers are the same, and which modifiers do nothing the second time. *)
From Verif Require Import PyBaseProof PyStrProof LinesModel LinesSpec LinesProof LinesProof3 LinesProps.

(** ** stable sorting *)
Section Stable.
  Context {A : Type}.
  (** compare by [lt1]; what is equal there, by [lt2] *)
  Definition then_by (lt1 lt2 : A -> A -> bool) (a b : A) : bool := lt1 a b || (negb (lt1 b a) && lt2 a b).
  Definition flip_if (reverse : bool) (lt : A -> A -> bool) (a b : A) : bool := if reverse then lt b a else lt a b.
  Lemma then_by_weak lt1 lt2 : strict_weak lt1 -> strict_weak lt2 -> strict_weak (then_by lt1 lt2).
  Proof.
    intros (I1 & A1 & T1) (I2 & A2 & T2). unfold then_by. split; [|split].
    - intros a. now rewrite I1, I2.
    - intros a b H. apply orb_true_iff in H. destruct H as [H|H].
      + now rewrite H, (A1 _ _ H).
      + apply andb_true_iff in H. destruct H as (H1 & H2). apply negb_true_iff in H1. rewrite H1, (A2 _ _ H2), andb_false_r. reflexivity.
    - intros a b c H1 H2. apply orb_false_iff in H1, H2. destruct H1 as (B1 & B2), H2 as (C1 & C2). rewrite (T1 _ _ _ B1 C1). cbn [orb].
      destruct (lt1 a c) eqn:AC; [reflexivity|]. cbn [negb andb]. assert (lt1 a b = false) as AB by exact (T1 _ _ _ C1 AC). assert (lt1 b c = false) as BC by exact (T1 _ _ _ AC B1).
      rewrite AB in B2. rewrite BC in C2. cbn in B2, C2. exact (T2 _ _ _ B2 C2).
  Qed.
  Lemma flip_weak r lt : strict_weak lt -> strict_weak (flip_if r lt).
  Proof. intros (I & As & T). destruct r; unfold flip_if; split; [exact I|split; [intros a b; apply As|intros a b c H1 H2; exact (T _ _ _ H2 H1)]|exact I|split; [exact As|exact T]]. Qed.
  Lemma ties_in (lt : A -> A -> bool) x y l : In y (ties lt x l) <-> In y l /\ lt x y = false /\ lt y x = false.
  Proof. unfold ties. rewrite filter_In, andb_true_iff, !negb_true_iff. tauto. Qed.
  (** a list in order is determined by what is equal to each value, in order *)
  Lemma stable_unique (lt : A -> A -> bool) : strict_weak lt -> forall l1 l2, ascending lt l1 -> ascending lt l2 -> (forall x, ties lt x l1 = ties lt x l2) -> l1 = l2.
  Proof.
    intros (I & As & T). unfold ascending. induction l1 as [|x l1 IH]; intros l2 S1 S2 E.
    - destruct l2 as [|y l2]; [reflexivity|]. specialize (E y). unfold ties in E at 2. cbn [filter] in E. rewrite I in E. discriminate.
    - destruct l2 as [|y l2]; [specialize (E x); unfold ties in E at 1; cbn [filter] in E; rewrite I in E; discriminate|].
      inversion S1 as [|? ? S1' F1]; inversion S2 as [|? ? S2' F2]; subst. rewrite Forall_forall in F1, F2.
      assert (X : lt x y = false).
      { assert (In x (ties lt x (y :: l2))) as H by (rewrite <- E; apply ties_in; split; [now left|auto]). apply ties_in in H. destruct H as ([<-|H] & _); [apply I|auto]. }
      assert (Y : lt y x = false).
      { assert (In y (ties lt y (x :: l1))) as H by (rewrite E; apply ties_in; split; [now left|auto]). apply ties_in in H. destruct H as ([<-|H] & _); [apply I|auto]. }
      pose proof (E x) as Ex. unfold ties in Ex. cbn [filter] in Ex. rewrite I, X, Y in Ex. cbn [negb andb] in Ex. injection Ex as -> _. f_equal. apply IH; auto.
      intros z. specialize (E z). unfold ties in *. cbn [filter] in E. destruct (negb (lt z y) && negb (lt y z)); [now injection E|exact E].
  Qed.
  Lemma sort_rev_flip lt (l : list A) : strict_weak lt -> sort_rev lt l = sort (flip_if true lt) l.
  Proof.
    intros W. apply (stable_unique (flip_if true lt)); [now apply flip_weak| |apply sort_sorted; now apply flip_weak|].
    - unfold sort_rev. pose proof (sort_sorted lt W (rev l)) as H. revert H. generalize (sort lt (rev l)). unfold ascending, flip_if. clear. intros m H.
      induction H as [|a m H IH F]; [constructor|]. cbn [rev]. clear H. induction (rev m) as [|b r IHr] eqn:E in IH, F, m |- *.
      + cbn. repeat constructor.
      + cbn [app]. inversion IH; subst. assert (Fr : Forall (fun z => lt z a = false) (b :: r)) by (rewrite <- E; apply Forall_rev; exact F). inversion Fr; subst.
        constructor; [apply (IHr (rev r)); [apply Forall_rev; assumption|apply rev_involutive|assumption]|]. apply Forall_app. split; [assumption|]. constructor; [|constructor]. assumption.
    - intros x. assert (forall m, ties (flip_if true lt) x m = ties lt x m) as TE by (intros m; unfold ties, flip_if; apply filter_ext; intros z; apply andb_comm).
      rewrite TE, sort_rev_ties by auto. rewrite sort_ties by (now apply flip_weak). symmetry. apply TE.
  Qed.
  (** sorting by the second key, then by the first *)
  Lemma sort_twice lt1 lt2 (l : list A) : strict_weak lt1 -> strict_weak lt2 -> sort lt1 (sort lt2 l) = sort (then_by lt1 lt2) l.
  Proof.
    intros W1 W2. pose proof (then_by_weak lt1 lt2 W1 W2) as W. apply (stable_unique _ W); [|now apply sort_sorted|].
    - pose proof (sort_sorted lt1 W1 (sort lt2 l)) as S1. assert (S2 : forall x, ascending lt2 (ties lt1 x (sort lt1 (sort lt2 l)))).
      { intros x. rewrite sort_ties by auto. pose proof (sort_sorted lt2 W2 l) as S. revert S. generalize (sort lt2 l). unfold ascending, ties. clear. induction 1 as [|a m H IH F]; [constructor|]. cbn [filter].
        destruct (_ && _); [|exact IH]. constructor; [exact IH|]. rewrite Forall_forall in *. intros z Z. apply filter_In in Z. now apply F. }
      revert S1 S2. generalize (sort lt1 (sort lt2 l)). clear l. intros m S1 S2. induction S1 as [|a m S1 IH F]; [constructor|]. destruct W1 as (I1 & As1 & T1).
      assert (S2a : ascending lt2 (a :: ties lt1 a m)) by (specialize (S2 a); unfold ties in S2; cbn [filter] in S2; rewrite I1 in S2; exact S2).
      constructor.
      + apply IH. intros x. specialize (S2 x). unfold ties in S2 at 1. cbn [filter] in S2. destruct (_ && _); [inversion S2; assumption|exact S2].
      + rewrite Forall_forall in *. intros b B. unfold then_by. rewrite (F b B). cbn [orb]. destruct (lt1 a b) eqn:E; [reflexivity|]. cbn [negb andb]. inversion S2a as [|? ? _ Fa]; subst. rewrite Forall_forall in Fa. apply Fa. apply ties_in. auto.
    - intros x. rewrite (sort_ties (then_by lt1 lt2) W).
      assert (TT : forall m, ties (then_by lt1 lt2) x m = ties lt2 x (ties lt1 x m)).
      { intros m. unfold ties. induction m as [|a m IH]; [reflexivity|]. cbn [filter]. unfold then_by at 1 2. destruct (lt1 x a) eqn:E1, (lt1 a x) eqn:E2; cbn [orb negb andb]; rewrite ?andb_false_r; try exact IH. cbn [filter]. destruct (_ && _); [now rewrite IH|exact IH]. }
      assert (CC : forall m, ties lt2 x (ties lt1 x m) = ties lt1 x (ties lt2 x m)).
      { intros m. unfold ties. induction m as [|a m IH]; [reflexivity|]. cbn [filter]. destruct (negb (lt1 x a) && negb (lt1 a x)) eqn:E1, (negb (lt2 x a) && negb (lt2 a x)) eqn:E2; cbn [filter]; rewrite ?E1, ?E2; [now rewrite IH|exact IH..]. }
      rewrite !TT, sort_ties by auto. now rewrite !CC, sort_ties by auto.
  Qed.
  Lemma insert_filter lt (f : A -> bool) x l : strict_weak lt -> ascending lt l -> filter f (insert lt x l) = if f x then insert lt x (filter f l) else filter f l.
  Proof.
    intros (I & As & T). induction 1 as [|y l S IH F]; [cbn; destruct (f x); reflexivity|]. cbn [insert]. destruct (lt y x) eqn:E.
    - cbn [filter]. rewrite IH. destruct (f y), (f x); try reflexivity. cbn [insert]. now rewrite E.
    - change (filter f (x :: y :: l)) with (if f x then x :: filter f (y :: l) else filter f (y :: l)). destruct (f x); [|reflexivity]. symmetry. apply insert_min. rewrite Forall_forall in *. intros z Z. apply filter_In in Z. destruct Z as ([<-|Z] & _); [exact E|]. exact (T _ _ _ E (F z Z)).
  Qed.
  Lemma sort_filter lt (f : A -> bool) l : strict_weak lt -> filter f (sort lt l) = sort lt (filter f l).
  Proof. intros W. induction l as [|x l IH]; [reflexivity|]. cbn [sort filter]. rewrite (insert_filter lt f x _ W (sort_sorted lt W l)), IH. destruct (f x); reflexivity. Qed.
End Stable.

Section Algebra.
  Context (is_bytes : bool) (start_column tab_width : Z).
  Notation modify := (modify is_bytes start_column tab_width).
  Notation pipeline := (pipeline is_bytes start_column tab_width).
  Notation white := (white is_bytes).
  Notation lstrip := (lstrip is_bytes).
  Notation rstrip := (rstrip is_bytes).

  (** ** one loop after another *)
  Definition after (g f : pair -> result (option pair)) (p : pair) : result (option pair) :=
    match f p with Err e => Err e | Ok None => Ok None | Ok (Some q) => g q end.
  Lemma for_each_after f g l up : (let '(y, e) := for_each f l up in for_each g y e) = for_each (after g f) l up.
  Proof.
    induction l as [|p l IH]; [reflexivity|]. cbn [for_each]. unfold after at 1. destruct (f p) as [[q|]|e]; [|exact IH|reflexivity].
    rewrite <- IH. destruct (for_each f l up) as [y e]. unfold yield_ at 1. cbn [for_each fst snd]. destruct (g q) as [[q'|]|e']; reflexivity.
  Qed.
  Lemma for_each_ext f g l up : (forall p, f p = g p) -> for_each f l up = for_each g l up.
  Proof. intros H. induction l as [|p l IH]; [reflexivity|]. cbn [for_each]. rewrite H, IH. reflexivity. Qed.
  (** a modifier that handles each line by itself *)
  Definition loop_of (m : modifier) : option (pair -> result (option pair)) :=
    match m with
    | Rstrip seps => Some (rstrip_line is_bytes seps)
    | Strip seps => Some (strip_line is_bytes tab_width seps)
    | FilterCommentLines markers => if is_nil markers then None else Some (keep_if (fun line => negb (comment_line is_bytes markers line)))
    | Containing s invert => Some (keep_if (fun line => if invert then negb (contains s line) else contains s line))
    | Grep search invert => Some (keep_if (fun line => if invert then negb (search line) else search line))
    | ConvertTabs => Some (fun p => Ok (Some (fst p, expandtabs tab_width (snd p))))
    | FilterEmpty => Some (keep_if (fun line => negb (is_nil line)))
    | Sort _ _ | StripComments _ _ _ _ | StripIndent => None
    end.
  Lemma modify_loop m f li : loop_of m = Some f -> modify m li = Ok (for_each f (fst li) (snd li)).
  Proof. destruct li as [l up]. destruct m; cbn; try discriminate; try (intros [= <-]; reflexivity). destruct (is_nil markers); [discriminate|]. intros [= <-]. reflexivity. Qed.
  Lemma pipeline2 m n f g li : loop_of m = Some f -> loop_of n = Some g -> pipeline [m; n] li = Ok (for_each (after g f) (fst li) (snd li)).
  Proof. intros M N. cbn [LinesModel.pipeline]. rewrite (modify_loop m f li M), (modify_loop n g _ N). f_equal. rewrite <- for_each_after. destruct (for_each f (fst li) (snd li)). reflexivity. Qed.

  (** ** the filters *)
  Inductive filter_modifier : modifier -> Prop :=
  | a_comment_filter markers : filter_modifier (FilterCommentLines markers)
  | a_containing s invert : filter_modifier (Containing s invert)
  | a_grep search invert : filter_modifier (Grep search invert)
  | an_empty_filter : filter_modifier FilterEmpty.
  Lemma filter_cases m : filter_modifier m -> (exists t, loop_of m = Some (keep_if t)) \/ (forall li, modify m li = Err ValueError).
  Proof. destruct 1; cbn; try (left; eexists; reflexivity). destruct markers; [right; intros [l up]; reflexivity|left; eexists; reflexivity]. Qed.

  (** The order of two filters does not matter. *)
  Theorem C129_filters_commute m n li : filter_modifier m -> filter_modifier n -> pipeline [m; n] li = pipeline [n; m] li.
  Proof.
    intros M N. destruct (filter_cases m M) as [(t & Et)|Em]; [|cbn [LinesModel.pipeline]; rewrite Em; destruct (modify n li) as [li'|e] eqn:E; [now rewrite Em|]].
    - destruct (filter_cases n N) as [(t' & Et')|En]; [|cbn [LinesModel.pipeline]; rewrite En, (modify_loop m _ li Et), En; reflexivity].
      rewrite (pipeline2 _ _ _ _ li Et Et'), (pipeline2 _ _ _ _ li Et' Et). f_equal. apply for_each_ext. intros p. unfold after, keep_if. destruct (t (snd p)) eqn:A, (t' (snd p)) eqn:B; rewrite ?A, ?B; reflexivity.
    - destruct (filter_cases n N) as [(t' & Et')|En]; [rewrite (modify_loop n _ li Et') in E; discriminate|rewrite En in E; congruence].
  Qed.

  (** ** stripping *)
  Lemma lstrip_fixed s : (forall c t, s = c :: t -> white c = false) -> lstrip s = s.
  Proof. destruct s as [|c s]; intros H; [reflexivity|]. cbn [LinesModel.lstrip]. now rewrite (H c s eq_refl). Qed.
  Lemma lstrip_head s c t : lstrip s = c :: t -> white c = false.
  Proof. destruct (lstrip_spec is_bytes s) as (_ & _ & _ & H). intros E. now rewrite E in H. Qed.
  Lemma lstrip_idem s : lstrip (lstrip s) = lstrip s.
  Proof. apply lstrip_fixed. intros c t. apply lstrip_head. Qed.
  Lemma rstrip_idem s : rstrip (rstrip s) = rstrip s.
  Proof. unfold LinesModel.rstrip. now rewrite rev_involutive, lstrip_idem. Qed.
  Lemma lstrip_skip ws s : forallb white ws = true -> lstrip (ws ++ s) = lstrip s.
  Proof. induction ws as [|c ws IH]; intros H; [reflexivity|]. cbn in H. apply andb_true_iff in H. destruct H as (A & B). cbn [app LinesModel.lstrip]. rewrite A. auto. Qed.
  Lemma rstrip_skip s ws : forallb white ws = true -> rstrip (s ++ ws) = rstrip s.
  Proof. intros H. unfold LinesModel.rstrip. rewrite rev_app_distr, lstrip_skip; [reflexivity|]. rewrite forallb_forall in *. intros x I. apply H. now apply in_rev. Qed.

  (** the text of a line between the white space around it *)
  Definition solid (r : str) : Prop := (exists c t, r = c :: t /\ white c = false) /\ (exists t c, r = t ++ [c] /\ white c = false).
  Lemma solid_ne r : solid r -> r <> [].
  Proof. intros ((c & t & -> & _) & _). discriminate. Qed.
  Lemma solid_lstrip r b : solid r -> lstrip (r ++ b) = r ++ b.
  Proof. intros ((c & t & -> & W) & _). cbn [app LinesModel.lstrip]. now rewrite W. Qed.
  Lemma solid_rstrip a r : solid r -> rstrip (a ++ r) = a ++ r.
  Proof. intros (_ & (t & c & -> & W)). unfold LinesModel.rstrip. rewrite app_assoc, rev_app_distr. cbn [rev app LinesModel.lstrip]. rewrite W. cbn [rev]. now rewrite rev_involutive. Qed.
  Lemma line_cases line : forallb white line = true \/ exists a r b, line = a ++ r ++ b /\ forallb white a = true /\ forallb white b = true /\ solid r.
  Proof.
    destruct (lstrip_spec is_bytes line) as (a & E & A & H). destruct (lstrip line) as [|c t] eqn:L; [left; now rewrite E, app_nil_r|].
    right. destruct (rstrip_spec is_bytes (c :: t)) as (b & E2 & B & H2). exists a, (rstrip (c :: t)), b. rewrite <- E2. split; [exact E|]. split; [exact A|]. split; [exact B|].
    revert E2 H2. generalize (rstrip (c :: t)). intros z E2 H2. destruct (rev z) as [|d u] eqn:R.
    - exfalso. apply (f_equal (@rev _)) in R. rewrite rev_involutive in R. cbn in R. subst z. cbn in E2. subst b. cbn in B. rewrite H in B. discriminate.
    - apply (f_equal (@rev _)) in R. rewrite rev_involutive in R. cbn [rev] in R. split.
      + destruct z as [|x y]; [destruct (rev u); discriminate|]. injection E2 as <- _. eauto.
      + exists (rev u), d. auto.
  Qed.
  Lemma blank_lstrip s : forallb white s = true -> lstrip s = [].
  Proof. intros H. rewrite <- (app_nil_r s), lstrip_skip by auto. reflexivity. Qed.
  Lemma blank_rstrip s : forallb white s = true -> rstrip s = [].
  Proof. intros H. change s with ([] ++ s). rewrite rstrip_skip by auto. reflexivity. Qed.

  Definition with_leading (i : info) (a : str) : info :=
    if is_nil a then i else mkInfo (i_line i) (i_number i) (i_column i + Z.of_nat (length (expandtabs tab_width a)))%Z (i_leading i ++ a) (i_trailing i) (i_end i) (i_indent i).
  Definition with_trailing (i : info) (b : str) : info :=
    if is_nil b then i else mkInfo (i_line i) (i_number i) (i_column i) (i_leading i) (b ++ i_trailing i) (i_end i) (i_indent i).
  Lemma rstrip_blank i line : forallb white line = true -> rstrip_line is_bytes None (i, line) = if is_nil line then Ok (Some (i, [])) else rmap Some (clip_all i).
  Proof. intros H. unfold rstrip_line. rewrite blank_rstrip by auto. destruct line; [reflexivity|]. reflexivity. Qed.
  Lemma rstrip_solid i a r b : forallb white b = true -> solid r -> rstrip_line is_bytes None (i, a ++ r ++ b) = Ok (Some (with_trailing i b, a ++ r)).
  Proof.
    intros B S. unfold rstrip_line. rewrite app_assoc, rstrip_skip, solid_rstrip by auto. destruct b as [|c b].
    - rewrite app_nil_r, str_eqb_refl. reflexivity.
    - destruct (str_eqb (a ++ r) ((a ++ r) ++ c :: b)) eqn:E.
      { apply str_eqb_eq in E. exfalso. apply (f_equal (@length _)) in E. rewrite (app_length (a ++ r)) in E. cbn [length] in E. lia. }
      unfold clip_trailing. cbn [clip_count]. rewrite Z.opp_involutive, slice_to_app, slice_from_app.
      assert (N : a ++ r <> []) by (destruct a; [now apply solid_ne|discriminate]). destruct (a ++ r) as [|x y] eqn:AR; [congruence|].
      destruct (- Z.of_nat (length (x :: y)) =? 0)%Z eqn:Z0; [cbn in Z0; lia|]. reflexivity.
  Qed.
  Lemma strip_blank i line : forallb white line = true -> strip_line is_bytes tab_width None (i, line) = if is_nil line then Ok (Some (i, [])) else rmap Some (clip_all i).
  Proof.
    intros H. unfold strip_line. destruct line as [|c line]; [reflexivity|]. rewrite blank_lstrip by auto. cbn [is_nil]. unfold clip_both. cbn [is_nil]. unfold clip_trailing. cbn [clip_count].
    pose proof (@slice_to_neg chr [] (c :: line)) as E. cbn [app] in E. rewrite E by discriminate. destruct (Z.of_nat (length (c :: line)) =? 0)%Z; reflexivity.
  Qed.
  Lemma strip_solid i a r b : forallb white a = true -> forallb white b = true -> solid r -> strip_line is_bytes tab_width None (i, a ++ r ++ b) = Ok (Some (with_trailing (with_leading i a) b, r)).
  Proof.
    intros A B S. unfold strip_line. assert (N : r <> []) by now apply solid_ne. assert (NN : is_nil (a ++ r ++ b) = false) by (destruct a, r; try congruence; reflexivity). rewrite NN.
    rewrite lstrip_skip, solid_lstrip by auto. assert (NR : is_nil (r ++ b) = false) by (destruct r; [congruence|reflexivity]). rewrite NR.
    rewrite rstrip_skip by auto. pose proof (solid_rstrip [] r S) as E. cbn [app] in E. rewrite E.
    replace (length (a ++ r ++ b) - length (r ++ b)) with (length a) by (rewrite !app_length; lia). rewrite firstn_app, firstn_all, Nat.sub_diag, firstn_O, app_nil_r.
    rewrite skipn_app, skipn_all, Nat.sub_diag, skipn_O. cbn [app]. unfold clip_both.
    assert (LEAD : (if is_nil a then @Ok (info * str) (i, a ++ r ++ b) else clip_leading tab_width i (a ++ r ++ b) (ByStr a)) = Ok (with_leading i a, r ++ b)).
    { unfold with_leading. destruct a as [|c a]; [reflexivity|]. cbn [is_nil]. unfold clip_leading. cbn [clip_count]. rewrite slice_from_app, NR. reflexivity. }
    etransitivity; [match goal with |- match ?x with _ => _ end = _ => replace x with (@Ok (info * str) (with_leading i a, r ++ b)) by (symmetry; exact LEAD) end; reflexivity|]. destruct b as [|c b]; [cbn; now rewrite app_nil_r|]. cbn [is_nil]. unfold clip_trailing. cbn [clip_count]. rewrite slice_to_neg by discriminate.
    destruct (Z.of_nat (length (c :: b)) =? 0)%Z eqn:Z0; [cbn in Z0; lia|]. destruct r; [congruence|]. reflexivity.
  Qed.
  Lemma clip_all_nil i q : clip_all i = Ok q -> snd q = [].
  Proof. unfold clip_all. destruct (ends_with _ _); [|discriminate]. intros [= <-]. reflexivity. Qed.
  Lemma nil_after_clip f i : (forall i, f (i, []) = Ok (Some (i, []))) -> (match rmap Some (clip_all i) with Err e => Err e | Ok None => Ok None | Ok (Some q) => f q end) = rmap Some (clip_all i).
  Proof. intros H. destruct (clip_all i) as [[i' l]|e] eqn:E; [|reflexivity]. apply clip_all_nil in E. cbn in E. subst l. cbn [rmap]. apply H. Qed.
  Lemma rstrip_nil i : rstrip_line is_bytes None (i, []) = Ok (Some (i, [])). Proof. reflexivity. Qed.
  Lemma strip_nil i : strip_line is_bytes tab_width None (i, []) = Ok (Some (i, [])). Proof. reflexivity. Qed.

  (** lines_rstrip and lines_strip without separators *)
  Lemma rstrip_rstrip p : after (rstrip_line is_bytes None) (rstrip_line is_bytes None) p = rstrip_line is_bytes None p.
  Proof.
    destruct p as [i line]. unfold after. destruct (line_cases line) as [H|(a & r & b & -> & A & B & S)].
    - rewrite rstrip_blank by auto. destruct (is_nil line); [reflexivity|]. apply nil_after_clip, rstrip_nil.
    - rewrite rstrip_solid by auto. pose proof (rstrip_solid (with_trailing i b) a r [] eq_refl S) as E. rewrite app_nil_r in E. exact E.
  Qed.
  Lemma strip_strip p : after (strip_line is_bytes tab_width None) (strip_line is_bytes tab_width None) p = strip_line is_bytes tab_width None p.
  Proof.
    destruct p as [i line]. unfold after. destruct (line_cases line) as [H|(a & r & b & -> & A & B & S)].
    - rewrite strip_blank by auto. destruct (is_nil line); [reflexivity|]. apply nil_after_clip, strip_nil.
    - rewrite strip_solid by auto. pose proof (strip_solid (with_trailing (with_leading i a) b) [] r [] eq_refl eq_refl S) as E. cbn [app] in E. rewrite app_nil_r in E. exact E.
  Qed.
  Lemma strip_rstrip p : after (rstrip_line is_bytes None) (strip_line is_bytes tab_width None) p = strip_line is_bytes tab_width None p.
  Proof.
    destruct p as [i line]. unfold after. destruct (line_cases line) as [H|(a & r & b & -> & A & B & S)].
    - rewrite strip_blank by auto. destruct (is_nil line); [reflexivity|]. apply nil_after_clip, rstrip_nil.
    - rewrite strip_solid by auto. pose proof (rstrip_solid (with_trailing (with_leading i a) b) [] r [] eq_refl S) as E. cbn [app] in E. rewrite app_nil_r in E. exact E.
  Qed.
  Lemma rstrip_strip p : after (strip_line is_bytes tab_width None) (rstrip_line is_bytes None) p = strip_line is_bytes tab_width None p.
  Proof.
    destruct p as [i line]. unfold after. destruct (line_cases line) as [H|(a & r & b & -> & A & B & S)].
    - rewrite rstrip_blank, strip_blank by auto. destruct (is_nil line); [reflexivity|]. apply nil_after_clip, strip_nil.
    - rewrite rstrip_solid, strip_solid by auto. pose proof (strip_solid (with_trailing i b) a r [] A eq_refl S) as E. rewrite app_nil_r in E. rewrite E.
      destruct a, b; reflexivity.
  Qed.

  (** ** tabs *)
  Lemma expandtabs_no_tab s : forall pos, ~ In 9%N (expandtabs_aux tab_width pos s).
  Proof.
    induction s as [|c s IH]; intros pos; [auto|]. cbn [expandtabs_aux]. destruct (c =? 9)%N eqn:E.
    - destruct (_ <? _)%Z; [|apply IH]. intros I. apply in_app_or in I. destruct I as [I|I]; [apply repeat_spec in I; discriminate|revert I; apply IH].
    - intros [->|I]; [discriminate|revert I; apply IH].
  Qed.

  (** ** lines_strip_indent *)
  (** a blank line after clipping: clipping it again changes nothing *)
  Definition settled (q : pair) : Prop := snd q = [] /\ clip_all (fst q) = Ok q.
  Lemma clip_all_settled i q : clip_all i = Ok q -> settled q.
  Proof. intros E. split; [now apply clip_all_nil in E|]. unfold clip_all in *. destruct (ends_with _ _) eqn:W; [|discriminate]. injection E as <-. cbn [fst snd i_line i_number i_column i_leading i_trailing i_end i_indent]. rewrite W. cbn [length Z.of_nat]. f_equal. f_equal. f_equal. lia. Qed.
  Lemma settled_indent n q : settled q -> settled (set_indent n q).
  Proof.
    destruct q as [[il nu co le tr en ind] l]. intros (E & C). cbn [snd] in E. subst l. split; [reflexivity|]. unfold clip_all in *. cbn [set_indent fst snd i_end i_line i_column i_leading i_trailing i_indent i_number] in *.
    destruct (ends_with en il); [|discriminate]. injection C as C1 C2 C3. rewrite C1, <- C2, C3. reflexivity.
  Qed.
  Lemma clip_blank i line : forallb white line = true -> clip_trailing i line (ByStr line) = clip_all i.
  Proof. intros _. unfold clip_trailing. cbn [clip_count]. destruct line as [|c line]; [reflexivity|]. pose proof (@slice_to_neg chr [] (c :: line)) as E. cbn [app] in E. rewrite E by discriminate. destruct (_ =? 0)%Z; reflexivity. Qed.
  Lemma loop_blanks levels indent bl : forall b1 rest up, Forall settled bl -> indent_loop is_bytes start_column tab_width levels indent b1 (bl ++ rest) up = indent_loop is_bytes start_column tab_width levels indent (b1 ++ bl) rest up.
  Proof.
    induction bl as [|[i l] bl IH]; intros b1 rest up F; [now rewrite app_nil_r|]. inversion F as [|? ? (E & C) F']; subst. cbn in E, C. subst l. cbn [app indent_loop LinesModel.lstrip is_nil].
    rewrite clip_blank by reflexivity. rewrite C. rewrite IH by auto. now rewrite <- app_assoc.
  Qed.
  Lemma set_indent_twice n q : set_indent n (set_indent n q) = set_indent n q. Proof. reflexivity. Qed.
  Lemma indent_again l : forall levels indent blanks up y e, Forall settled blanks ->
    indent_loop is_bytes start_column tab_width levels indent blanks l up = (y, e) -> indent_loop is_bytes start_column tab_width levels indent [] y e = (y, e).
  Proof.
    induction l as [|[i line] l IH]; intros levels indent blanks up y e FB E.
    - cbn in E. destruct up as [x|]; injection E as <- <-; [reflexivity|].
      pose proof (loop_blanks levels indent (map (set_indent 0) blanks) [] [] None) as H. rewrite app_nil_r in H. rewrite H.
      + cbn. rewrite map_map. reflexivity.
      + apply Forall_forall. intros q Q. apply in_map_iff in Q. destruct Q as (q' & <- & Q). apply settled_indent. rewrite Forall_forall in FB. auto.
    - cbn [indent_loop] in E. destruct (is_nil (lstrip line)) eqn:B.
      + destruct (clip_trailing i line (ByStr line)) as [q|x] eqn:C; [|injection E as <- <-; reflexivity]. apply (IH levels indent (blanks ++ [q]) up y e); auto.
        apply Forall_app. split; auto. constructor; [|constructor]. rewrite clip_blank in C; [now apply clip_all_settled in C|]. destruct (line_cases line) as [W|(a & r & b & -> & A & Bw & S)]; [exact W|].
        rewrite lstrip_skip, solid_lstrip in B by auto. destruct r; [now apply solid_ne in S|discriminate].
      + set (n := (Z.of_nat (length line) - Z.of_nat (length (lstrip line)))%Z) in *. destruct (clip_leading tab_width i line (ByInt n)) as [[i' line']|x] eqn:C; [|injection E as <- <-; reflexivity].
        destruct (indent_step start_column (i_column i') (i_leading i') levels indent) as [[levels' indent']|x] eqn:ST; [|injection E as <- <-; reflexivity].
        destruct (indent_loop is_bytes start_column tab_width levels' indent' [] l up) as [y' e'] eqn:R. injection E as <- <-.
        assert (L' : line' = lstrip line).
        { destruct (lstrip_spec is_bytes line) as (ws & EL & _). unfold clip_leading in C. cbn [clip_count] in C. assert (NE : n = Z.of_nat (length ws)) by (unfold n; rewrite EL at 1; rewrite app_length; lia).
          assert (SL : slice_from line n = lstrip line) by (rewrite NE; rewrite EL at 1; apply slice_from_app). rewrite SL, B in C. injection C as _ <-. reflexivity. }
        rewrite map_app, <- app_assoc. rewrite loop_blanks.
        * cbn [map app set_indent fst snd indent_loop]. subst line'. rewrite lstrip_idem, B. rewrite Z.sub_diag. unfold clip_leading. cbn [clip_count i_line i_number i_column i_leading i_trailing i_end i_indent].
          assert (SF : slice_from (lstrip line) 0 = lstrip line) by exact (slice_from_app [] (lstrip line)). rewrite SF, B. assert (ST0 : slice_to (lstrip line) 0 = []) by exact (slice_to_app [] (lstrip line)). rewrite ST0.
          change (expandtabs tab_width []) with (@nil chr). cbn [length Z.of_nat]. rewrite Z.add_0_r, app_nil_r. cbn [i_line i_number i_column i_leading i_trailing i_end i_indent]. rewrite ST.
          rewrite (IH levels' indent' [] up y' e' (Forall_nil _) R). cbn [app]. rewrite map_app, map_map. cbn [map]. rewrite <- app_assoc. reflexivity.
        * apply Forall_forall. intros q Q. apply in_map_iff in Q. destruct Q as (q' & <- & Q). apply settled_indent. rewrite Forall_forall in FB. auto.
  Qed.

  (** ** the theorems *)
  Definition order_of (key_lt : option (pair -> pair -> bool)) : pair -> pair -> bool := match key_lt with Some lt => lt | None => fun a b => str_ltb (snd a) (snd b) end.
  Definition sensible (key_lt : option (pair -> pair -> bool)) : Prop := match key_lt with Some lt => strict_weak lt | None => True end.
  Lemma order_weak k : sensible k -> strict_weak (order_of k).
  Proof. destruct k; [auto|intros _; exact by_line_weak]. Qed.
  Lemma sort_modify k r l up : sensible k -> modify (Sort k r) (l, up) = Ok (match up with Some e => ([], Some e) | None => (sort (flip_if r (order_of k)) l, None) end).
  Proof.
    intros S. cbn [LinesModel.modify]. unfold lines_sort. destruct up; [reflexivity|]. do 2 f_equal. change (match k with Some lt => lt | None => by_line end) with (order_of k).
    destruct r; [rewrite sort_rev_flip by now apply order_weak|]; reflexivity.
  Qed.
  Lemma for_each_keep t l up : for_each (keep_if t) l up = (filter (fun p => t (snd p)) l, up).
  Proof. induction l as [|p l IH]; [reflexivity|]. cbn [for_each filter]. unfold keep_if at 1. rewrite IH. destruct (t (snd p)); reflexivity. Qed.
  Lemma filter_modify m : filter_modifier m -> (exists t, forall l up, modify m (l, up) = Ok (filter t l, up)) \/ (forall li, modify m li = Err ValueError).
  Proof. intros F. destruct (filter_cases m F) as [(t & E)|E]; [|auto]. left. exists (fun p => t (snd p)). intros l up. rewrite (modify_loop m _ _ E), for_each_keep. reflexivity. Qed.

  (** Filtering before or after sorting is the same. *)
  Theorem C129_sort_filter m key_lt reverse li : filter_modifier m -> sensible key_lt -> pipeline [Sort key_lt reverse; m] li = pipeline [m; Sort key_lt reverse] li.
  Proof.
    intros F S. destruct li as [l up]. cbn [LinesModel.pipeline]. rewrite sort_modify by auto. destruct (filter_modify m F) as [(t & E)|E]; [|rewrite !E; reflexivity].
    rewrite (E l up), sort_modify by auto. destruct up; rewrite E; [reflexivity|]. now rewrite sort_filter by (apply flip_weak, order_weak, S).
  Qed.
  (** Sorting by a second key, then by a first one is sorting by both. *)
  Theorem C129_sort_sort key1 reverse1 key2 reverse2 li : sensible key1 -> sensible key2 ->
    pipeline [Sort key2 reverse2; Sort key1 reverse1] li =
    pipeline [Sort (Some (then_by (flip_if reverse1 (order_of key1)) (flip_if reverse2 (order_of key2)))) false] li.
  Proof.
    intros S1 S2. destruct li as [l up]. cbn [LinesModel.pipeline]. rewrite sort_modify by auto. assert (S : sensible (Some (then_by (flip_if reverse1 (order_of key1)) (flip_if reverse2 (order_of key2))))) by (apply then_by_weak; apply flip_weak, order_weak; auto).
    rewrite (sort_modify _ false l up S). destruct up; rewrite sort_modify by auto; [reflexivity|]. rewrite sort_twice by (apply flip_weak, order_weak; auto). reflexivity.
  Qed.
  (** Stripping on the right is part of stripping. *)
  Theorem C129_rstrip_strip li : pipeline [Rstrip None; Strip None] li = pipeline [Strip None] li /\ pipeline [Strip None; Rstrip None] li = pipeline [Strip None] li.
  Proof.
    rewrite (pipeline2 (Rstrip None) (Strip None) _ _ li eq_refl eq_refl), (pipeline2 (Strip None) (Rstrip None) _ _ li eq_refl eq_refl). cbn [LinesModel.pipeline]. rewrite (modify_loop (Strip None) _ li eq_refl).
    split; f_equal; apply for_each_ext; [apply rstrip_strip|apply strip_rstrip].
  Qed.
  (** modifiers that do nothing the second time *)
  Definition once_is_enough (m : modifier) : Prop :=
    match m with
    | Rstrip None | Strip None | ConvertTabs | StripIndent | FilterEmpty | FilterCommentLines _ | Containing _ _ | Grep _ _ => True
    | Sort key_lt _ => sensible key_lt
    | Rstrip (Some _) | Strip (Some _) | StripComments _ _ _ _ => False
    end.
  Theorem C129_idempotent m li : once_is_enough m -> pipeline [m; m] li = pipeline [m] li.
  Proof.
    intros O.
    assert (LOOP : forall f, loop_of m = Some f -> (forall p, after f f p = f p) -> pipeline [m; m] li = pipeline [m] li).
    { intros f E H. rewrite (pipeline2 m m f f li E E). cbn [LinesModel.pipeline]. rewrite (modify_loop m f li E). f_equal. now apply for_each_ext. }
    assert (FILTER : filter_modifier m -> pipeline [m; m] li = pipeline [m] li).
    { intros F. destruct (filter_cases m F) as [(t & E)|E]; [|cbn [LinesModel.pipeline]; rewrite E; reflexivity]. apply (LOOP _ E). intros p. unfold after, keep_if. destruct (t (snd p)) eqn:T; rewrite ?T; reflexivity. }
    destruct m as [[s|]|[s|]|ms|s inv|f inv|k r|ms qs x mq| | |]; cbn in O; try contradiction; try (apply FILTER; constructor).
    - apply (LOOP _ eq_refl). apply rstrip_rstrip.
    - apply (LOOP _ eq_refl). apply strip_strip.
    - destruct li as [l up]. cbn [LinesModel.pipeline]. rewrite sort_modify by auto. destruct up; rewrite sort_modify by auto; [reflexivity|]. rewrite sort_ascending_id; [reflexivity|]. apply sort_sorted, flip_weak, order_weak, O.
    - apply (LOOP _ eq_refl). intros p. unfold after. cbn [fst snd]. do 3 f_equal. apply expandtabs_id. unfold has_tab. apply expandtabs_no_tab.
    - destruct li as [l up]. cbn [LinesModel.pipeline LinesModel.modify]. destruct (indent_loop is_bytes start_column tab_width [] 0 [] l up) as [y e] eqn:E. cbn [LinesModel.modify]. f_equal. exact (indent_again l [] 0%Z [] up y e (Forall_nil _) E).
  Qed.
End Algebra.
(** With separators, stripping again can do more: one character is '\n', see C36. *)
Theorem C129_strip_separators_refuted : exists li : generated pair, pipeline false 1 8 [Strip (Some [u ";"])] li <> pipeline false 1 8 [Strip (Some [u ";"]); Strip (Some [u ";"])] li /\
  exists l, lines false 1 (Strings [u "x;" ++ [10%N] ++ u ";" ++ [10%N]]) 1 = Ok l /\ li = (l, None).
Proof. eexists. split; [|eexists; split; [vm_compute; reflexivity|reflexivity]]. vm_compute. discriminate. Qed.
(** Filters do not commute with stripping: "  " is not empty, but is when stripped. *)
Theorem C129_strip_filter_refuted : exists li : generated pair, pipeline false 1 8 [Strip None; FilterEmpty] li <> pipeline false 1 8 [FilterEmpty; Strip None] li /\
  exists l, lines false 1 (Strings [u "  "]) 1 = Ok l /\ li = (l, None).
Proof. eexists. split; [|eexists; split; [vm_compute; reflexivity|reflexivity]]. vm_compute. discriminate. Qed.
Print Assumptions C129_filters_commute.
Print Assumptions C129_sort_filter.
Print Assumptions C129_sort_sort.
Print Assumptions C129_rstrip_strip.
Print Assumptions C129_idempotent.
Print Assumptions C129_strip_separators_refuted.
Print Assumptions C129_strip_filter_refuted.

(** sorted by length, longest first, and by text where that is equal *)
Example C129_example : let by_length (a b : pair) := (length (snd a) <? length (snd b))%nat in
  strict_weak by_length /\
  exists l, lines false 1 (Strings [u "bb"; u "a"; u "ccc"; u "b"; u "aa"]) 1 = Ok l /\
  match pipeline false 1 8 [Sort None false; Sort (Some by_length) true] (l, None) with Ok (y, e) => map snd y = [u "ccc"; u "aa"; u "bb"; u "a"; u "b"] /\ e = None | Err _ => False end.
Proof.
  intros by_length. split.
  - unfold by_length. split; [intros a; apply Nat.ltb_irrefl|]. split; [intros a b H; apply Nat.ltb_lt in H; apply Nat.ltb_ge; lia|]. intros a b c H1 H2. apply Nat.ltb_ge in H1, H2. apply Nat.ltb_ge. lia.
  - eexists. split; [reflexivity|]. vm_compute. auto.
Qed.
