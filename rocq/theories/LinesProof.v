(** lines: every modifier only clips, numbers or drops (lemmas for C41-C44). *)
From Verif Require Import LinesModel LinesSpec SplitSpec SplitProof SplitProof2 SplitProof3 SplitProps PyStrProof RegexProof PyBaseProof.
From Verif Require Import DelimSpec DelimProof DelimProof4 DelimProps.

Lemma starts_with_iff p : forall s, starts_with p s = true <-> exists r, s = p ++ r.
Proof.
  induction p as [|a p IH]; intros [|b s]; cbn; try (split; [eauto|auto]; fail).
  - split; [discriminate|]. intros [r E]. discriminate.
  - rewrite andb_true_iff, N.eqb_eq, IH. split; [intros [-> [r ->]]; eauto|]. intros [r [= -> ->]]. eauto.
Qed.
Lemma ends_with_iff w s : ends_with w s = true <-> exists r, s = r ++ w.
Proof.
  unfold ends_with. rewrite starts_with_iff. split; intros [r E].
  - exists (rev r). apply (f_equal (@rev chr)) in E. now rewrite rev_app_distr, !rev_involutive in E.
  - exists (rev r). now rewrite E, rev_app_distr.
Qed.
Lemma contains_iff w s : contains w s = true <-> exists a b, s = a ++ w ++ b.
Proof.
  induction s as [|c s IH]; cbn [contains].
  - rewrite orb_false_r, starts_with_iff. split; [intros [r E]; now exists [], r|]. intros (a & b & E). symmetry in E. apply app_eq_nil in E. destruct E as [_ E]. exists b. now symmetry.
  - rewrite orb_true_iff, starts_with_iff, IH. split.
    + intros [[r E]|(a & b & ->)]; [now exists [], r|now exists (c :: a), b].
    + intros ([|x a] & b & E); [left; now exists b|]. injection E as -> ->. right. eauto.
Qed.
Lemma partition_spec w s x y : (exists a b, s = a ++ w ++ b) -> partition w s = (x, y) -> s = x ++ w ++ y.
Proof.
  revert x y. induction s as [|c s IH]; intros x y C E.
  - cbn in E. destruct C as (a & b & C). symmetry in C. apply app_eq_nil in C. destruct C as [_ C]. apply app_eq_nil in C. destruct C as [-> _]. cbn in E. injection E as <- <-. reflexivity.
  - cbn [partition] in E. destruct (starts_with w (c :: s)) eqn:S.
    + injection E as <- <-. apply starts_with_iff in S. destruct S as [r S]. rewrite S at 1. rewrite S, skipn_app, skipn_all, Nat.sub_diag. reflexivity.
    + destruct (partition w s) as [a b] eqn:P. injection E as <- <-. cbn. f_equal. apply IH; auto. destruct C as ([|z a'] & b' & C).
      * apply not_true_iff_false in S. exfalso. apply S. apply starts_with_iff. eauto.
      * injection C as -> ->. eauto.
Qed.
Lemma slice_to_app {A} (a b : list A) : slice_to (a ++ b) (Z.of_nat (length a)) = a.
Proof. unfold slice_to. destruct (_ <? _)%Z eqn:E; [lia|]. rewrite Nat2Z.id, firstn_app, Nat.sub_diag, firstn_all. apply app_nil_r. Qed.
Lemma slice_from_app {A} (a b : list A) : slice_from (a ++ b) (Z.of_nat (length a)) = b.
Proof. unfold slice_from. destruct (_ <? _)%Z eqn:E; [lia|]. now rewrite Nat2Z.id, skipn_app, Nat.sub_diag, skipn_all. Qed.
Lemma slice_to_neg {A} (a b : list A) : b <> [] -> slice_to (a ++ b) (- Z.of_nat (length b)) = a.
Proof.
  intros N. unfold slice_to. assert (length b <> 0) by (destruct b; [congruence|discriminate]). destruct (_ <? _)%Z eqn:E; [|lia].
  rewrite app_length. replace (Z.to_nat (Z.of_nat (length a + length b) + - Z.of_nat (length b))) with (length a) by lia. rewrite firstn_app, Nat.sub_diag, firstn_all. apply app_nil_r.
Qed.

Section LP.
  Context (is_bytes : bool) (start_column tab_width : Z) (tabs : Prop).
  Notation clip_leading := (clip_leading tab_width).
  Notation width s := (Z.of_nat (length (expandtabs tab_width s))).

  Lemma lstrip_spec s : exists ws, s = ws ++ lstrip is_bytes s /\ forallb (white is_bytes) ws = true /\ match lstrip is_bytes s with c :: _ => white is_bytes c = false | [] => True end.
  Proof.
    induction s as [|c s (ws & E & W & N)]; [now exists []|]. cbn [lstrip]. destruct (white is_bytes c) eqn:C.
    - exists (c :: ws). cbn [app forallb]. rewrite <- E, C. auto.
    - exists []. auto.
  Qed.
  Lemma rstrip_spec s : exists ws, s = rstrip is_bytes s ++ ws /\ forallb (white is_bytes) ws = true /\ match rev (rstrip is_bytes s) with c :: _ => white is_bytes c = false | [] => True end.
  Proof.
    unfold rstrip. destruct (lstrip_spec (rev s)) as (ws & E & W & N). exists (rev ws). split; [|split].
    - rewrite <- rev_app_distr, <- E. now rewrite rev_involutive.
    - apply forallb_forall. intros x I. rewrite forallb_forall in W. apply W. now apply in_rev.
    - now rewrite rev_involutive.
  Qed.

  (** what a modifier may do to a pair *)
  Inductive step : pair -> pair -> Prop :=
  | step_lead i s r : r <> [] ->
      step (i, s ++ r) (mkInfo (i_line i) (i_number i) (i_column i + width s) (i_leading i ++ s) (i_trailing i) (i_end i) (i_indent i), r)
  | step_trail i r s : step (i, r ++ s) (mkInfo (i_line i) (i_number i) (i_column i) (i_leading i) (s ++ i_trailing i) (i_end i) (i_indent i), r)
  | step_all i line q : clip_all i = Ok q -> step (i, line) q
  | step_indent n p : step p (set_indent n p)
  | step_tabs i line : tabs -> step (i, line) (i, expandtabs tab_width line).
  Inductive steps : pair -> pair -> Prop :=
  | steps_refl p : steps p p
  | steps_more p q r : step p q -> steps q r -> steps p r.
  Lemma steps_one p q : step p q -> steps p q. Proof. intros. eapply steps_more; [eassumption|constructor]. Qed.
  Lemma steps_trans p q r : steps p q -> steps q r -> steps p r.
  Proof. induction 1; auto. intros. eapply steps_more; eauto. Qed.

  (** invariant of every pair *)
  Definition wf (p : pair) : Prop :=
    ends_with (i_end (fst p)) (i_line (fst p)) = true /\
    ((0 < tab_width)%Z -> snd p <> [] -> (start_column <= i_column (fst p))%Z /\ (i_leading (fst p) <> [] -> (start_column < i_column (fst p))%Z)).
  Lemma clip_all_ok i : ends_with (i_end i) (i_line i) = true -> exists q, clip_all i = Ok q /\ snd q = [].
  Proof. intros E. unfold clip_all. rewrite E. eauto. Qed.
  Lemma clip_all_end i q : clip_all i = Ok q -> i_end (fst q) = i_end i /\ i_line (fst q) = i_line i /\ i_number (fst q) = i_number i /\ snd q = [] /\ i_indent (fst q) = i_indent i.
  Proof. unfold clip_all. destruct (ends_with _ _); [|discriminate]. intros [= <-]. auto. Qed.
  Lemma expandtabs_width s : (0 < tab_width)%Z -> s <> [] -> (0 < width s)%Z.
  Proof.
    intros T. destruct s as [|c s]; [congruence|]. intros _. unfold expandtabs. cbn [expandtabs_aux]. destruct (c =? 9)%N.
    - destruct (0 <? tab_width)%Z eqn:E; [|lia]. rewrite app_length, repeat_length. pose proof (Z.mod_pos_bound 0 tab_width T). lia.
    - cbn. lia.
  Qed.
  Lemma step_wf p q : wf p -> step p q -> wf q.
  Proof.
    intros [E C] S. destruct S as [i s r N|i r s|i line q' A|n p|i line Tb]; unfold wf in *; cbn [fst snd i_line i_number i_column i_leading i_trailing i_end] in *.
    - split; auto. intros T _. destruct C as [C1 C2]; auto; [destruct s; auto; discriminate|].
      pose proof (expandtabs_width s T) as W. split; [lia|]. intros L. destruct s as [|c s]; [rewrite app_nil_r in L; specialize (C2 L); lia|]. specialize (W ltac:(discriminate)). lia.
    - split; auto. intros T N. apply C; auto. destruct r; [congruence|discriminate].
    - destruct (clip_all_end _ _ A) as (E1 & E2 & _ & E3 & _). rewrite E1, E2, E3. split; auto. intros _ H. congruence.
    - unfold set_indent. cbn [fst snd i_line i_number i_column i_leading i_trailing i_end]. auto.
    - split; auto. intros T N. apply C; auto. intros ->. apply N. reflexivity.
  Qed.
  Lemma steps_wf p q : wf p -> steps p q -> wf q.
  Proof. intros W S. revert W. induction S; auto. intros. eauto using step_wf. Qed.
  Lemma step_identity p q : step p q -> identity q = identity p.
  Proof.
    destruct 1 as [| |i line q A| |]; try reflexivity. destruct (clip_all_end _ _ A) as (E1 & E2 & E3 & _). unfold identity. cbn [fst]. now rewrite E1, E2, E3.
  Qed.
  Lemma steps_identity p q : steps p q -> identity q = identity p.
  Proof. induction 1 as [|p q r S _ IH]; auto. rewrite IH. now apply step_identity. Qed.

  Lemma clip_leading_step (i : info) (s r : str) : wf (i, s ++ r) -> exists q, clip_leading i (s ++ r) (ByStr s) = Ok q /\ step (i, s ++ r) q /\ snd q = r.
  Proof.
    intros [E _]. unfold LinesModel.clip_leading. cbn [clip_count]. rewrite slice_from_app. destruct (is_nil r) eqn:N.
    - destruct (clip_all_ok i E) as (q & A & B). exists q. split; auto. apply is_nil_iff in N. subst r. split; auto. now constructor.
    - apply is_nil_false in N. eexists. split; [reflexivity|]. split; auto. now constructor.
  Qed.
  Lemma clip_leading_int (i : info) (s r : str) : wf (i, s ++ r) -> exists q, clip_leading i (s ++ r) (ByInt (Z.of_nat (length s))) = Ok q /\ step (i, s ++ r) q /\ snd q = r.
  Proof.
    intros [E _]. unfold LinesModel.clip_leading. cbn [clip_count]. rewrite slice_from_app, slice_to_app. destruct (is_nil r) eqn:N.
    - destruct (clip_all_ok i E) as (q & A & B). exists q. split; auto. apply is_nil_iff in N. subst r. split; auto. now constructor.
    - apply is_nil_false in N. eexists. split; [reflexivity|]. split; auto. now constructor.
  Qed.
  Lemma clip_trailing_step (i : info) (r s : str) : wf (i, r ++ s) -> exists q, clip_trailing i (r ++ s) (ByStr s) = Ok q /\ step (i, r ++ s) q /\ (s <> [] -> snd q = r).
  Proof.
    intros [E _]. unfold clip_trailing. cbn [clip_count]. destruct s as [|c s].
    - cbn. destruct (clip_all_ok i E) as (q & A & B). exists q. split; auto. split; [now constructor|congruence].
    - rewrite slice_to_neg by discriminate. destruct (_ =? 0)%Z eqn:Z0; [cbn in Z0; lia|]. destruct (is_nil r) eqn:N.
      + destruct (clip_all_ok i E) as (q & A & B). exists q. split; auto. apply is_nil_iff in N. subst r. split; auto. now constructor.
      + eexists. split; [reflexivity|]. split; auto. constructor.
  Qed.
  Lemma clip_trailing_int (i : info) (r s : str) : wf (i, r ++ s) -> exists q, clip_trailing i (r ++ s) (ByInt (- Z.of_nat (length r))) = Ok q /\ step (i, r ++ s) q /\ snd q = r.
  Proof.
    intros [E _]. unfold clip_trailing. cbn [clip_count]. rewrite Z.opp_involutive, slice_to_app, slice_from_app. destruct (is_nil r) eqn:N.
    - apply is_nil_iff in N. subst r. cbn [length]. cbn. destruct (clip_all_ok i E) as (q & A & B). exists q. split; auto. split; auto. now constructor.
    - apply is_nil_false in N. destruct (_ =? 0)%Z eqn:Z0; [destruct r; [congruence|cbn in Z0; lia]|]. rewrite (proj2 (is_nil_false _ _) N).
      eexists. split; [reflexivity|]. split; auto. constructor.
  Qed.

  (** exceptions: no assertion fails *)
  Definition fine (e : exn) : Prop := (0 < tab_width)%Z -> e <> AssertionError.
  Inductive sub : list pair -> list pair -> Prop :=
  | sub_stop l : sub l []
  | sub_yield p q l l' : steps p q -> sub l l' -> sub (p :: l) (q :: l')
  | sub_drop p l l' : sub l l' -> sub (p :: l) l'.
  Definition ends_fine (e up : option exn) : Prop := e = up \/ exists x, e = Some x /\ fine x.
  Lemma for_each_sub f l up : Forall wf l ->
    (forall p, wf p -> match f p with Ok (Some q) => steps p q | Ok None => True | Err e => fine e end) ->
    sub l (fst (for_each f l up)) /\ ends_fine (snd (for_each f l up)) up.
  Proof.
    intros W H. induction W as [|p l Wp Wl IH]; cbn [for_each]; [split; [constructor|left; auto]|].
    specialize (H p Wp). destruct (f p) as [[q|]|e].
    - unfold yield_. cbn [fst snd]. destruct IH. split; [apply sub_yield|]; auto.
    - destruct IH. split; auto. now apply sub_drop.
    - split; [constructor|]. right. exists e. auto.
  Qed.
  Lemma multistrip_cases s seps left right : match multistrip s seps left right with Ok t => exists a b, s = a ++ t ++ b /\ (left = false -> a = []) | Err e => e = ValueError end.
  Proof.
    destruct (is_nil seps) eqn:N; [unfold multistrip; now rewrite N|]. destruct (existsb is_nil seps) eqn:X; [unfold multistrip; now rewrite N, X|].
    apply is_nil_false in N. assert (NE : nonempty seps).
    { apply Forall_forall. intros w I ->. apply not_true_iff_false in X. apply X. apply existsb_exists. exists []. auto. }
    rewrite multistrip_eq by auto. cbn zeta.
    destruct (strip_left_spec seps s NE) as (a & Ea & _). destruct left.
    - destruct right; [|exists a, []; rewrite app_nil_r; split; auto; discriminate].
      destruct (strip_right_spec seps (strip_left seps s) NE) as (b & c & Eb & _). exists a, (b ++ c). rewrite <- Eb. split; auto. discriminate.
    - destruct right; [|exists [], []; rewrite app_nil_r; auto]. destruct (strip_right_spec seps s NE) as (b & c & Eb & _). exists [], (b ++ c). auto.
  Qed.
  Lemma rstrip_line_ok o p : wf p -> match rstrip_line is_bytes o p with Ok (Some q) => steps p q | Ok None => True | Err e => fine e end.
  Proof.
    destruct p as [i line]. intros W. unfold rstrip_line. destruct o as [seps|].
    - pose proof (multistrip_cases line seps false true) as M. destruct (multistrip line seps false true) as [r|e]; [|subst e; intros _; discriminate].
      destruct M as (a & b & E & A). rewrite (A eq_refl) in E. cbn in E. destruct (str_eqb r line) eqn:Q.
      + apply str_eqb_eq in Q. rewrite Q. apply steps_refl.
      + rewrite E in W |- *. destruct (clip_trailing_int i r b W) as ([i' l'] & -> & S & E'). cbn in *. subst l'. now apply steps_one.
    - destruct (rstrip_spec line) as (ws & E & _ & _). destruct (str_eqb _ line) eqn:Q; [constructor|].
      remember (rstrip is_bytes line) as r. rewrite E in W |- *. destruct (clip_trailing_int i r ws W) as (q & -> & S & E'). cbn. now apply steps_one.
  Qed.
  Lemma clip_both_ok (i : info) (a r b : str) : wf (i, a ++ r ++ b) -> exists q, clip_both tab_width i (a ++ r ++ b) a b = Ok (Some q) /\ steps (i, a ++ r ++ b) q /\ (r <> [] \/ a = [] -> snd q = r).
  Proof.
    intros W. unfold clip_both.
    set (start := if is_nil a then _ else _).
    assert (exists q : pair, start = Ok q /\ steps (i, a ++ r ++ b) q /\ snd q = r ++ b) as (q & -> & S & E).
    { unfold start. destruct (is_nil a) eqn:N; [apply is_nil_iff in N; subst a; eexists; split; [reflexivity|split; [constructor|auto]]|].
      destruct (clip_leading_step i a (r ++ b) W) as (q & A & S & E). exists q. split; auto. split; auto. now apply steps_one. }
    pose proof (steps_wf _ _ W S) as W'. destruct q as [i' l']. cbn in E. subst l'. destruct (is_nil b) eqn:N.
    - apply is_nil_iff in N. subst b. eexists. split; [reflexivity|]. split; auto. intros _. cbn. apply app_nil_r.
    - destruct (clip_trailing_step i' r b W') as (q & -> & S' & E'). exists q. split; auto. split; [eapply steps_trans; [eassumption|now apply steps_one]|].
      intros _. apply E'. now apply is_nil_false.
  Qed.
  Lemma strip_line_ok o p : wf p -> match strip_line is_bytes tab_width o p with Ok (Some q) => steps p q | Ok None => True | Err e => fine e end.
  Proof.
    destruct p as [i line]. intros W. unfold strip_line. destruct (is_nil line); [constructor|]. destruct o as [seps|].
    - pose proof (multistrip_cases line seps true true) as M. destruct (multistrip line seps true true) as [r|e]; [|subst e; intros _; discriminate].
      destruct M as (a & b & E & _). destruct (is_nil r) eqn:N.
      + destruct (clip_both_ok i [] [] line W) as (q & E' & S & _). cbn [app] in E'. rewrite E'. exact S.
      + destruct (partition r line) as [x y] eqn:P. apply partition_spec in P; [|eauto]. rewrite P in W |- *. destruct (clip_both_ok i x r y W) as (q & -> & S & _). exact S.
    - destruct (lstrip_spec line) as (ws & E & _). destruct (is_nil (lstrip is_bytes line)) eqn:N.
      + destruct (clip_both_ok i [] [] line W) as (q & E' & S & _). cbn [app] in E'. rewrite E'. exact S.
      + remember (lstrip is_bytes line) as l eqn:L. clear L. destruct (rstrip_spec l) as (tr & E' & _). remember (rstrip is_bytes l) as r eqn:R. clear R.
        assert (firstn (length line - length l) line = ws) as ->.
        { rewrite E, app_length. replace (length ws + length l - length l) with (length ws) by lia. rewrite firstn_app, Nat.sub_diag, firstn_all. apply app_nil_r. }
        assert (skipn (length r) l = tr) as -> by (rewrite E', skipn_app, Nat.sub_diag, skipn_all; reflexivity).
        rewrite E' in E. rewrite E in W |- *. destruct (clip_both_ok i ws r tr W) as (q & -> & S & _). exact S.
  Qed.

  (** lines_strip_line_comments *)
  Lemma re_split1 r s : match re_split r (Some 1) s with ((b, m) :: t, a) => s = b ++ m ++ a /\ t = [] | ([], a) => a = s end.
  Proof.
    unfold re_split. destruct (length s) as [|n]; [reflexivity|]. cbn [re_split_fuel option_map]. pose proof (search_gen r s) as S. destruct (re_search r s) as [[[b m] a]|]; auto.
    replace (re_split_fuel n r (Some (Init.Nat.pred 1)) a) with (@nil (str * str), a) by (destruct n; reflexivity). destruct S. auto.
  Qed.

  (** the segments of a line that starts inside the quote mark [state] *)
  Definition plain (segs : list triple) : Prop := Forall (fun t => fst (fst t) = [] -> snd t = []) segs.
  Definition from_state (line : str) (state : str) (segs : list triple) : Prop :=
    match state with
    | [] => plain segs
    | _ => match segs with
           | [] => True
           | (a, b, c) :: rest => a = [] /\ plain rest /\ (c = [] -> rest = [] /\ b = line)
           end
    end.
  Lemma find_comment_suffix markers line segs : forall state lq tq, from_state line state segs ->
    match find_comment markers line segs state lq tq with
    | Comment s => exists pre, concat (map joined3 segs) = pre ++ s
    | NoComment state' _ _ => state' = state \/ state' = []
    | Broken => False
    end.
  Proof.
    assert (Plain : forall segs lq tq, plain segs -> match find_comment markers line segs [] lq tq with
      | Comment s => exists pre, concat (map joined3 segs) = pre ++ s | NoComment st _ _ => st = [] | Broken => False end).
    { clear segs. induction segs as [|[[a b] c] segs IH]; intros lq tq F; cbn [find_comment map concat]; auto. inversion F as [|? ? F1 F2]; subst. cbn [fst snd] in F1.
      assert (Go : match find_comment markers line segs [] a c with
        | Comment s => exists pre, joined3 (a, b, c) ++ concat (map joined3 segs) = pre ++ s | NoComment st _ _ => st = [] | Broken => False end).
      { specialize (IH a c F2). destruct (find_comment _ _ _ _ _ _); auto. destruct IH as [pre ->]. exists (joined3 (a, b, c) ++ pre). now rewrite app_assoc. }
      destruct (negb (is_nil a)) eqn:A; auto. apply negb_false_iff, is_nil_iff in A. subst a. cbn [is_nil negb].
      pose proof (re_split1 (separators_re markers true) b) as R. destruct (re_split _ (Some 1) b) as [[|[x m] t] y]; auto. destruct R as [-> ->]. rewrite (F1 eq_refl).
      exists x. unfold joined3 at 1. cbn [fst snd]. now rewrite app_nil_r, <- !app_assoc. }
    intros state lq tq F. destruct state as [|c0 state]; [specialize (Plain segs lq tq F); destruct (find_comment _ _ _ _ _ _); auto|].
    destruct segs as [|[[a b] c] segs]; cbn [find_comment map concat]; auto. destruct F as (-> & F & G). cbn [is_nil negb].
    destruct (is_nil c) eqn:C.
    - apply is_nil_iff in C. destruct (G C) as [-> ->]. cbn [negb]. rewrite str_eqb_refl. cbn. auto.
    - cbn [negb]. specialize (Plain segs [] c F). destruct (find_comment _ _ _ _ _ _); auto. destruct Plain as [pre ->]. exists (joined3 ([], b, c) ++ pre). now rewrite app_assoc.
  Qed.
  Lemma segments_plain quote : (forall ps out, outside quote ps out -> Forall (fun g => lead g = [] -> DelimSpec.trail g = []) out) /\
    (forall first q ps out, inside_of quote first q ps out -> match out with [] => False | g :: rest => lead g = first /\ body g ++ DelimSpec.trail g ++ shown rest = text_of ps /\
       (DelimSpec.trail g = q \/ DelimSpec.trail g = [] /\ rest = []) /\ Forall (fun g => lead g = [] -> DelimSpec.trail g = []) rest end).
  Proof.
    apply segments_ind.
    - intros ps _. destruct (text_of ps); constructor; auto.
    - intros ps q rest out _ Q I IH. apply Forall_app. split; [destruct (text_of ps); repeat constructor; auto|].
      destruct out as [|g out]; [contradiction|]. destruct IH as (L & _ & T & F). constructor; auto. intros H. destruct T as [T|[T _]]; auto. congruence.
    - intros first q ps _. cbn. rewrite !app_nil_r. split; [auto|]. split; [auto|]. split; [auto|constructor].
    - intros first q ps rest out _ O IH. cbn. rewrite text_of_app. split; auto. split; auto. rewrite (proj1 (segments_shown quote) _ _ O). reflexivity.
  Qed.
  Lemma deliver_forall bad (P : triple -> Prop) l : Forall (fun g => P (lead g, body g, DelimSpec.trail g)) l -> Forall P (fst (deliver bad l)).
  Proof.
    induction 1 as [|g l H F IH]; cbn [deliver]; [constructor|]. destruct (bad g); [constructor|]. destruct (deliver bad l) as [y e]. cbn [fst] in *. now constructor.
  Qed.
  Lemma segments_from_state line quotes escape multi state segs e : quotes_ok quotes multi state ->
    split_quoted_strings is_bytes line quotes escape multi state = Ok (segs, e) -> from_state line state segs.
  Proof.
    intros Q E. destruct (C39_segments is_bytes line quotes escape multi state Q) as (l & y & sg & Sp & S & E'). rewrite E in E'. apply Ok_inj in E'.
    destruct state as [|c state].
    - apply (proj1 (segments_plain _)) in S. cbn. unfold plain. replace segs with (fst (segs, e)) by reflexivity. rewrite E'. now apply deliver_forall.
    - apply (proj2 (segments_plain _)) in S. destruct sg as [|g sg]; [contradiction|]. destruct S as (L & B & T & F). cbn [deliver] in E'. cbn [from_state].
      destruct (newline_inside is_bytes multi g); [injection E' as -> _; auto|]. destruct (deliver _ sg) as [y0 e0] eqn:D. injection E' as -> _.
      split; auto. split; [unfold plain; replace y0 with (fst (y0, e0)) by reflexivity; rewrite <- D; now apply deliver_forall|].
      intros N. destruct T as [T|[_ T]]; [congruence|]. subst sg. cbn in D. injection D as <- <-. split; auto. rewrite N in B. cbn in B. rewrite app_nil_r in B.
      rewrite B, pieces_text. exact (splits_flat _ _ _ _ _ _ Sp).
  Qed.
  Lemma segments_join line quotes escape multi state segs : quotes_ok quotes multi state ->
    split_quoted_strings is_bytes line quotes escape multi state = Ok (segs, None) -> concat (map joined3 segs) = line.
  Proof. intros Q E. destruct (C39_text_preserved _ _ _ _ _ _ _ _ Q E) as [J _]. exact (J eq_refl). Qed.
  Definition args_ok (quotes multi : list str) (state : str) : Prop :=
    (quotes = [] /\ multi = [] /\ state = []) \/ (quotes_ok quotes multi state /\ ~ (quotes = [] /\ multi = [])).
  Lemma comments_sub markers quotes escape multi l up : Forall wf l -> forall state, args_ok quotes multi state ->
    sub l (fst (comments_loop is_bytes markers quotes escape multi state l up)) /\ ends_fine (snd (comments_loop is_bytes markers quotes escape multi state l up)) up.
  Proof.
    induction 1 as [|[i line] l Wp Wl IH]; intros state A; cbn [comments_loop].
    { split; [constructor|]. destruct up; [left; auto|]. destruct (is_nil state); [left; auto|]. right. exists SyntaxError. split; auto. intros _; discriminate. }
    assert (A0 : args_ok quotes multi []).
    { destruct A as [A|[(B & C & D & _) A]]; [left; tauto|right]. split; auto. split; auto. }
    assert (AS : forall q, In q multi -> args_ok quotes multi q).
    { intros q I. destruct A as [(_ & -> & _)|[(B & C & D & _) A]]; [contradiction|]. right. split; auto. split; auto. split; auto. split; auto. right. apply in_app_iff. auto. }
    set (sg := if is_nil quotes && is_nil multi then Ok ([([], line, [])], None) else split_quoted_strings is_bytes line quotes escape multi state).
    assert (S : match sg with Ok (segs, e) => from_state line state segs /\ (e = None -> concat (map joined3 segs) = line) /\ (e = None \/ e = Some SyntaxError) | Err _ => False end).
    { subst sg. destruct A as [(-> & -> & ->)|[Q N]].
      - cbn. split; [repeat constructor; auto|]. split; auto. unfold joined3. cbn. now rewrite !app_nil_r.
      - assert (is_nil quotes && is_nil multi = false) as -> by (apply not_true_iff_false; intros H; apply andb_true_iff in H; rewrite !is_nil_iff in H; tauto).
        destruct (split_quoted_strings is_bytes line quotes escape multi state) as [[segs e]|e] eqn:E.
        + split; [eapply segments_from_state; eauto|]. split; [intros ->; eapply segments_join; eauto|]. destruct (C39_text_preserved _ _ _ _ _ _ _ _ Q E) as [_ [|[]]]; auto.
        + destruct (C39_segments is_bytes line quotes escape multi state Q) as (? & ? & ? & _ & _ & E'). congruence. }
    destruct sg as [[segs [e|]]|e]; [| |contradiction]; destruct S as (F & J & Ex); pose proof (find_comment_suffix markers line segs state [] [] F) as C.
    - destruct (find_comment _ _ _ _ _ _); try contradiction; (split; [constructor|]; right; exists e; split; auto; destruct Ex as [Ex|Ex]; [discriminate|injection Ex as ->; intros _; discriminate]).
    - specialize (J eq_refl). destruct (find_comment _ _ _ _ _ _) as [s|st lq tq|]; [| |contradiction].
      + destruct C as [pre C]. rewrite C in J. subst line. destruct (clip_trailing_step i pre s Wp) as (q & -> & St & _). unfold yield_. cbn [fst snd].
        destruct (IH [] A0). split; auto. apply sub_yield; auto. now apply steps_one.
      + assert (As : args_ok quotes multi st) by (destruct C as [-> | ->]; auto).
        destruct (negb (is_nil lq) && is_nil tq).
        * destruct (str_in lq multi) eqn:I; [|split; [constructor|right; exists SyntaxError; split; auto; intros _; discriminate]]. apply str_in_iff in I.
          destruct (IH lq (AS lq I)). unfold yield_. cbn [fst snd]. split; auto. apply sub_yield; auto. constructor.
        * destruct (IH st As). unfold yield_. cbn [fst snd]. split; auto. apply sub_yield; auto. constructor.
  Qed.

  (** lines_strip_indent *)
  Lemma sub_trans_steps l l1 : sub l l1 -> forall l2, Forall2 steps l1 l2 -> sub l l2.
  Proof.
    induction 1; intros l2 F; [inversion F; constructor|inversion F; subst; apply sub_yield; eauto using steps_trans|apply sub_drop; auto].
  Qed.
  Lemma sub_app l1 m1 l2 m2 : Forall2 steps l1 m1 -> sub l2 m2 -> sub (l1 ++ l2) (m1 ++ m2).
  Proof. induction 1; cbn; auto. intros. apply sub_yield; auto. Qed.
  Lemma Forall2_indent n l m : Forall2 steps l m -> Forall2 steps l (map (set_indent n) m).
  Proof. induction 1; cbn; constructor; auto. eapply steps_trans; [eassumption|]. apply steps_one, step_indent. Qed.
  Lemma dedent_err c l n e : dedent c l n = Err e -> e = IndentationError.
  Proof. revert n. induction l as [|x l IH]; cbn; intros n E; [congruence|]. destruct (_ <=? _)%Z; [destruct (_ <? _)%Z; congruence|eauto]. Qed.
  Lemma indent_sub l up : Forall wf l -> forall origin blanks leadings indent, Forall2 steps origin blanks ->
    sub (origin ++ l) (fst (indent_loop is_bytes start_column tab_width leadings indent blanks l up)) /\
    ends_fine (snd (indent_loop is_bytes start_column tab_width leadings indent blanks l up)) up.
  Proof.
    induction 1 as [|[i line] l Wp Wl IH]; intros origin blanks leadings indent B; cbn [indent_loop].
    { destruct up; [split; [constructor|left; auto]|]. cbn [fst snd]. split; [|left; auto]. rewrite <- (app_nil_r (map _ _)). apply sub_app; [now apply Forall2_indent|constructor]. }
    destruct (lstrip_spec line) as (ws & E & _). remember (lstrip is_bytes line) as r eqn:R. clear R. destruct (is_nil r) eqn:N.
    - destruct (clip_trailing_step i [] line Wp) as (q & Ec & S & _). cbn [app] in S, Ec. rewrite Ec.
      destruct (IH (origin ++ [(i, line)]) (blanks ++ [q]) leadings indent) as [H1 H2]; [apply Forall2_app; auto; constructor; auto; now apply steps_one|].
      rewrite <- app_assoc in H1. split; auto.
    - subst line. rewrite app_length. replace (Z.of_nat (length ws + length r) - Z.of_nat (length r))%Z with (Z.of_nat (length ws)) by lia.
      destruct (clip_leading_int i ws r Wp) as ([i' l'] & -> & S & E'). cbn in E'. subst l'. pose proof (step_wf _ _ Wp S) as W'.
      unfold indent_step. set (res := if (i_column i' =? start_column)%Z then _ else _).
      assert (match res with Ok _ => True | Err e => fine e end) as Hr.
      { subst res. destruct (i_column i' =? start_column)%Z eqn:C0.
        - destruct (is_nil (i_leading i')) eqn:L; auto. intros T. apply is_nil_false in L, N. destruct W' as [_ W']. cbn [fst snd] in W'. destruct (W' T N) as [_ H]. specialize (H L). lia.
        - destruct leadings as [|top below]; auto. destruct (top =? _)%Z; auto. destruct (top <? _)%Z; auto. destruct (dedent _ _ _) eqn:D; auto. apply dedent_err in D. subst. intros _. discriminate. }
      destruct res as [[leadings' indent']|e]; [|split; [constructor|right; exists e; auto]].
      destruct (indent_loop _ _ _ leadings' indent' [] l up) as [y e] eqn:L. destruct (IH [] [] leadings' indent' ltac:(constructor)) as [H1 H2]. rewrite L in H1, H2. cbn [fst snd app] in *.
      split; auto. assert (X : sub ((origin ++ [(i, ws ++ r)]) ++ l) (map (set_indent indent') (blanks ++ [(i', r)]) ++ y)); [|now rewrite <- app_assoc in X].
      apply sub_app; auto. apply Forall2_indent, Forall2_app; auto. constructor; [apply steps_one; exact S|constructor].
  Qed.
  Lemma keep_if_ok f p : match keep_if f p with Ok (Some q) => steps p q | Ok None => True | Err e => fine e end.
  Proof. unfold keep_if. destruct (f (snd p)); [constructor|auto]. Qed.

  Lemma sub_wf l l' : sub l l' -> Forall wf l -> Forall wf l'.
  Proof. induction 1; intros W; [constructor| |]; inversion W; subst; auto. constructor; auto. eauto using steps_wf. Qed.
  (** l' comes from l: some pairs dropped, the others changed by steps, and reordered *)
  Definition from (l l' : list pair) : Prop := exists m rest, Permutation l (m ++ rest) /\ Forall2 steps m l'.
  Lemma sub_from l l' : sub l l' -> from l l'.
  Proof.
    induction 1 as [l|p q l l' S _ (m & rest & P & F)|p l l' _ (m & rest & P & F)].
    - exists [], l. auto.
    - exists (p :: m), rest. split; [cbn; now constructor|now constructor].
    - exists m, (p :: rest). split; auto. rewrite P. apply Permutation_middle.
  Qed.
  Lemma from_refl l : from l l.
  Proof. exists l, []. rewrite app_nil_r. split; auto. induction l; constructor; auto. constructor. Qed.
  Lemma Forall2_perm {A B} (R : A -> B -> Prop) l l' m : Permutation l' m -> Forall2 R l l' -> exists l2, Permutation l l2 /\ Forall2 R l2 m.
  Proof.
    intros P. revert l. induction P as [|x l1 l2 P IH|x y l1|l1 l2 l3 P1 IH1 P2 IH2]; intros l F.
    - inversion F; subst. exists []. auto.
    - inversion F as [|a ? b ? H1 H2]; subst. destruct (IH _ H2) as (l2' & P' & F'). exists (a :: l2'). auto.
    - inversion F as [|a ? b ? H1 H2]; subst. inversion H2 as [|a' ? b' ? H3 H4]; subst. exists (a' :: a :: b'). split; [constructor|auto].
    - destruct (IH1 _ F) as (m1 & Q1 & F1). destruct (IH2 _ F1) as (m2 & Q2 & F2). exists m2. split; auto. now transitivity m1.
  Qed.
  Lemma Forall2_app_split {A B} (R : A -> B -> Prop) l m1 m2 : Forall2 R l (m1 ++ m2) -> exists l1 l2, l = l1 ++ l2 /\ Forall2 R l1 m1 /\ Forall2 R l2 m2.
  Proof. intros F. apply Forall2_app_inv_r in F. destruct F as (l1 & l2 & F1 & F2 & E). eauto. Qed.
  Lemma from_trans l l1 l2 : from l l1 -> from l1 l2 -> from l l2.
  Proof.
    intros (m & rest & P & F) (m1 & rest1 & P1 & F1). destruct (Forall2_perm _ _ _ _ P1 F) as (m' & P' & F'). apply Forall2_app_split in F'. destruct F' as (a & b & -> & Fa & Fb).
    exists a, (b ++ rest). split; [rewrite P, P', <- app_assoc; reflexivity|]. clear - Fa F1. revert l2 F1. induction Fa; intros l2 F1; inversion F1; subst; constructor; eauto using steps_trans.
  Qed.
  Lemma from_wf l l' : from l l' -> Forall wf l -> Forall wf l'.
  Proof.
    intros (m & rest & P & F) W. assert (Forall wf m) as Wm by (apply (Forall_app wf m rest), (Permutation_Forall P); auto).
    clear - F Wm. induction F; inversion Wm; subst; constructor; eauto using steps_wf.
  Qed.
  Definition sorts (m : modifier) : Prop := match m with Sort _ _ => True | _ => False end.
  Lemma modify_ok m l up : (m = ConvertTabs -> tabs) -> Forall wf l -> match modify is_bytes start_column tab_width m (l, up) with
    | Err e => e = ValueError
    | Ok (l', e) => (~ sorts m -> sub l l') /\ from l l' /\ ends_fine e up
    end.
  Proof.
    intros T W. unfold modify.
    assert (K : forall f, match (@Ok (generated pair) (for_each f l up)) with Err e => e = ValueError | Ok (l', e) => (forall p, wf p -> match f p with Ok (Some q) => steps p q | Ok None => True | Err e => fine e end) ->
        (~ sorts m -> sub l l') /\ from l l' /\ ends_fine e up end).
    { intros f. destruct (for_each f l up) as [l' e] eqn:E. intros H. destruct (for_each_sub f l up W H) as [H1 H2]. rewrite E in H1, H2. cbn [fst snd] in *. auto using sub_from. }
    destruct m as [o|o|markers|s inv|search inv|lt rev|markers quotes escape multi| | |].
    - specialize (K (rstrip_line is_bytes o)). cbn beta iota in K |- *. destruct (for_each _ l up). apply K. apply rstrip_line_ok.
    - specialize (K (strip_line is_bytes tab_width o)). cbn beta iota in K |- *. destruct (for_each _ l up). apply K. apply strip_line_ok.
    - destruct (is_nil markers); auto. specialize (K (keep_if (fun line => negb (comment_line is_bytes markers line)))). destruct (for_each _ l up). apply K. intros; apply keep_if_ok.
    - specialize (K (keep_if (fun line => if inv then negb (contains s line) else contains s line))). destruct (for_each _ l up). apply K. intros; apply keep_if_ok.
    - specialize (K (keep_if (fun line => if inv then negb (search line) else search line))). destruct (for_each _ l up). apply K. intros; apply keep_if_ok.
    - unfold lines_sort. destruct up as [e|].
      + split; [intros H; exfalso; apply H; exact I|]. split; [apply sub_from; constructor|left; auto].
      + split; [intros H; exfalso; apply H; exact I|]. split; [|left; auto]. exists (if rev then sort_rev (match lt with Some f => f | None => by_line end) l else sort (match lt with Some f => f | None => by_line end) l), []. rewrite app_nil_r. split.
        * symmetry. destruct rev; [apply sort_rev_perm|apply sort_perm].
        * remember (if rev then _ else _) as x. clear. induction x; constructor; auto. constructor.
    - destruct (is_nil markers); auto. destruct (if is_nil quotes && is_nil multi then _ else _) as [g|e] eqn:G.
      + destruct (comments_loop is_bytes markers quotes escape multi [] l up) as [l' e] eqn:E.
        assert (A : args_ok quotes multi []).
        { destruct (is_nil quotes && is_nil multi) eqn:N; [apply andb_true_iff in N; rewrite !is_nil_iff in N; left; tauto|].
          right. split.
          - destruct (C39_errors is_bytes [120%N] quotes escape multi []) as [_ H]. assert (D : split_quoted_strings is_bytes [120%N] quotes escape multi [] <> Err ValueError) by congruence.
            unfold quotes_ok. destruct (existsb is_nil (quotes ++ multi)) eqn:X.
            + exfalso. apply D, H. intros (Q & _). apply existsb_exists in X. destruct X as (q & I & Z). apply is_nil_iff in Z. exact (Q q I Z).
            + destruct (has_repeats (quotes ++ multi)) eqn:X2.
              * exfalso. apply D, H. intros (_ & _ & Q & _). apply has_repeats_iff in Q. congruence.
              * split; [now apply existsb_nil_false|]. split; [intros Z; apply app_eq_nil in Z; destruct Z as [-> ->]; discriminate|]. split; [now apply has_repeats_iff|auto].
          - intros [-> ->]. discriminate. }
        destruct (comments_sub markers quotes escape multi l up W [] A) as [H1 H2]. rewrite E in H1, H2. cbn [fst snd] in *. auto using sub_from.
      + destruct (is_nil quotes && is_nil multi); [discriminate|].
        unfold split_quoted_strings in G. repeat match type of G with (if ?b then _ else _) = _ => destruct b; [congruence|] end.
        destruct (multisplit _ _ _ _ _ _ _) in G; discriminate.
    - specialize (K (fun p => Ok (Some (fst p, expandtabs tab_width (snd p))))). destruct (for_each _ l up). apply K. intros [i line] _. apply steps_one, step_tabs. auto.
    - destruct (indent_loop is_bytes start_column tab_width [] 0 [] l up) as [l' e] eqn:E. destruct (indent_sub l up W [] [] [] 0%Z ltac:(constructor)) as [H1 H2]. rewrite E in H1, H2. cbn [fst snd app] in *. auto using sub_from.
    - specialize (K (keep_if (fun line => negb (is_nil line)))). destruct (for_each _ l up). apply K. intros; apply keep_if_ok.
  Qed.
End LP.
