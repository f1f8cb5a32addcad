From Verif Require Import PyBase SplitSpec SplitProof PatModel.
Require Import ZifyBool ZifyNat ZifyN.

(** ** trees that match alike *)
Definition orel {R R'} (Q : R -> R' -> Prop) (x : option R) (y : option R') : Prop :=
  match x, y with Some a, Some b => Q a b | None, None => True | _, _ => False end.
Section Sem.
  Context (G : groups -> groups -> Prop).
  Definition sem (r r' : re) : Prop :=
    forall (R R' : Type) (Q : R -> R' -> Prop) s g g' k k', G g g' ->
    (forall s g g', G g g' -> orel Q (k s g) (k' s g')) -> orel Q (rmatch r s g k) (rmatch r' s g' k').
  Lemma sem_eps : sem Eps Eps.
  Proof. intros R R' Q s g g' k k' H K. cbn. auto. Qed.
  Lemma sem_chr p q : (forall d, p d = q d) -> sem (Chr p) (Chr q).
  Proof. intros E R R' Q s g g' k k' H K. cbn. destruct s as [|c s]; cbn; auto. rewrite E. destruct (q c); cbn; auto. Qed.
  Lemma sem_eol : sem Eol Eol.
  Proof. intros R R' Q s g g' k k' H K. cbn [rmatch]. destruct (at_eol s); [apply K; auto | exact I]. Qed.
  Lemma sem_seq a a' b b' : sem a a' -> sem b b' -> sem (Seq a b) (Seq a' b').
  Proof. intros A B R R' Q s g g' k k' H K. cbn [rmatch]. apply A; [exact H|]. intros s1 g1 g1' H1. apply B; auto. Qed.
  Lemma sem_alt a a' b b' : sem a a' -> sem b b' -> sem (Alt a b) (Alt a' b').
  Proof.
    intros A B R R' Q s g g' k k' H K. cbn. specialize (A R R' Q s g g' k k' H K).
    destruct (rmatch a s g k), (rmatch a' s g' k'); cbn in A |- *; try tauto. apply B; auto.
  Qed.
  Lemma sem_star a a' : sem a a' -> sem (Star a) (Star a').
  Proof.
    intros A R R' Q s g g' k k' H K. cbn [rmatch]. generalize (length s) as n. intros n. revert s g g' H.
    induction n as [|n IH]; intros s g g' H; [apply K; auto|]. cbn -[Nat.ltb length orel rmatch].
    match goal with |- orel Q (match ?x with _ => _ end) (match ?y with _ => _ end) => assert (E : orel Q x y) end.
    { apply A; auto. intros s1 g1 g1' H1. destruct (length s1 <? length s); [apply IH; auto | exact I]. }
    match goal with |- orel Q (match ?x with _ => _ end) (match ?y with _ => _ end) => destruct x, y end; cbn in E |- *; try tauto. apply K; auto.
  Qed.
  Lemma sem_plus a a' : sem a a' -> sem (Plus a) (Plus a').
  Proof. intros A. apply sem_seq; [|apply sem_star]; auto. Qed.
  Lemma sem_opt a a' : sem a a' -> sem (Opt a) (Opt a').
  Proof. intros A. apply sem_alt; [auto|apply sem_eps]. Qed.
  Lemma sem_grp i j a a' : (forall g g' w, G g g' -> G ((i, w) :: g) ((j, w) :: g')) -> sem a a' -> sem (Grp i a) (Grp j a').
  Proof. intros E A R R' Q s g g' k k' H K. cbn. apply A; auto. Qed.
  Lemma sem_grp_erase i a a' : (forall g g' w, G g g' -> G ((i, w) :: g) g') -> sem a a' -> sem (Grp i a) a'.
  Proof. intros E A R R' Q s g g' k k' H K. cbn. apply A; auto. Qed.
  Lemma sem_seq_eps a a' : sem a a' -> sem (Seq a Eps) a'.
  Proof. intros A R R' Q s g g' k k' H K. cbn. apply A; auto. Qed.
  Lemma sem_eps_seq a a' : sem a a' -> sem (Seq Eps a) a'.
  Proof. intros A R R' Q s g g' k k' H K. cbn. apply A; auto. Qed.
  Lemma sem_assoc a b c r : sem (Seq a (Seq b c)) r -> sem (Seq (Seq a b) c) r.
  Proof. intros A R R' Q s g g' k k' H K. exact (A R R' Q s g g' k k' H K). Qed.
  Lemma sem_assoc' a b c r : sem r (Seq a (Seq b c)) -> sem r (Seq (Seq a b) c).
  Proof. intros A R R' Q s g g' k k' H K. exact (A R R' Q s g g' k k' H K). Qed.
  Lemma sem_lit p q w : (forall c d, p c d = q c d) -> sem (Lit p w) (Lit q w).
  Proof. intros E. induction w as [|c w IH]; cbn; [apply sem_eps|]. apply sem_seq; [apply sem_chr; auto|exact IH]. Qed.
  Lemma sem_alts l l' r r' : sem r r' -> Forall2 sem l l' -> sem (fold_left Alt l r) (fold_left Alt l' r').
  Proof. intros H F. revert r r' H. induction F as [|a a' l l' A F IH]; intros r r' H; cbn; auto. apply IH, sem_alt; auto. Qed.
End Sem.
Definition alike : re -> re -> Prop := sem eq.
Lemma alike_refl r : alike r r.
Proof.
  induction r; [apply sem_eps|apply sem_chr; auto|apply sem_seq; auto|apply sem_alt; auto|apply sem_star; auto|apply sem_grp; auto; congruence|apply sem_eol].
Qed.
(** alike trees give the same matches *)
Lemma alike_match r r' s : alike r r' -> re_match r s = re_match r' s.
Proof.
  intros A. unfold re_match.
  assert (H : orel eq (rmatch r s [] (fun s g => Some (g, s))) (rmatch r' s [] (fun s g => Some (g, s)))).
  { apply A; auto. intros; subst; reflexivity. }
  destruct (rmatch r s [] _), (rmatch r' s [] _); cbn in H; try tauto; congruence.
Qed.

(** ** reading the patterns made from separators *)
Section Read.
  Context (special space : chr -> bool).
  Definition meta (c : chr) : bool := existsb (N.eqb c) (u "\.^$*+?{}[]|()").
  Context (Hmeta : forall c, meta c = true -> special c = true) (Halnum : forall c, special c = true -> ascii_alnum c = false)
          (Hspace : forall c, space c = true -> meta c = false).
  Context (same : chr -> chr -> bool).
  Notation run := (prun same space false).
  Lemma run_app p s t : run p (s ++ t) = match run p s with Some p => run p t | None => None end.
  Proof. revert p. induction s as [|c s IH]; intros p; cbn [app prun]; auto. destruct (pstep same space false p c); auto. Qed.
  Lemma normal_plain p c : meta c = false -> normal same false p c = Some (put p (Chr (same c))).
  Proof.
    intros M. unfold normal. cbn [andb]. cbn in M. repeat (apply orb_false_iff in M; destruct M as [? M]).
    repeat match goal with H : (c =? _)%N = false |- _ => rewrite H; clear H end. reflexivity.
  Qed.
  Definition lit1 (c : chr) : re := Chr (same c).
  Definition esc1 (c : chr) : str := if special c then [92%N; c] else [c].
  Lemma run_escape w : forall st g al sq rp nx nm,
    run (mkP Normal st (mkF g al sq rp) nx nm) (re_escape special w) = Some (mkP Normal st (mkF g al (rev (map lit1 w) ++ sq) (rp && is_nil w)) nx nm).
  Proof.
    induction w as [|c w IH]; intros st g al sq rp nx nm.
    - cbn. now rewrite andb_true_r.
    - change (re_escape special (c :: w)) with (esc1 c ++ re_escape special w). rewrite run_app.
      assert (E : run (mkP Normal st (mkF g al sq rp) nx nm) (esc1 c) = Some (mkP Normal st (mkF g al (lit1 c :: sq) false) nx nm)).
      { unfold esc1. destruct (special c) eqn:S.
        - cbn [prun pstep p_mode]. unfold normal. cbn [andb N.eqb Pos.eqb]. cbn [pstep with_mode p_mode].
          assert (A := Halnum c S). rewrite A. destruct (c =? 115)%N eqn:B; [apply N.eqb_eq in B; subst; discriminate A|]. reflexivity.
        - cbn [prun pstep p_mode]. rewrite normal_plain; [reflexivity|]. destruct (meta c) eqn:M; auto. apply Hmeta in M. congruence. }
      rewrite E, IH. cbn [map rev is_nil]. rewrite andb_false_r, <- app_assoc. reflexivity.
  Qed.
  Lemma run_spaces w : forallb space w = true -> forall st g al sq rp nx nm,
    run (mkP Normal st (mkF g al sq rp) nx nm) w = Some (mkP Normal st (mkF g al (rev (map lit1 w) ++ sq) (rp && is_nil w)) nx nm).
  Proof.
    induction w as [|c w IH]; intros F st g al sq rp nx nm.
    - cbn. now rewrite andb_true_r.
    - cbn [forallb] in F. apply andb_prop in F. destruct F as [F1 F2]. cbn [prun pstep p_mode]. rewrite normal_plain by auto. unfold put, add_item. cbn [p_stack p_cur f_group f_alts f_seq p_next p_names].
      rewrite IH by auto. cbn [map rev is_nil]. rewrite andb_false_r, <- app_assoc. reflexivity.
  Qed.
  Lemma seq_lit w : seq_of (map lit1 w) = Lit same w.
  Proof. induction w as [|c w IH]; cbn; auto. unfold Lit in IH. f_equal; auto. Qed.
  Lemma run_open st f nx nm : run (mkP Normal st f nx nm) (u "(?:") = Some (mkP Normal (f :: st) (mkF None [] [] false) nx nm).
  Proof. reflexivity. Qed.
  Lemma run_close st f g nx nm : run (mkP Normal (f :: st) g nx nm) (u ")") = Some (mkP Normal st (add_item f (match f_group g with Some i => Grp i (alt_of g) | None => alt_of g end)) nx nm).
  Proof. reflexivity. Qed.
  Lemma run_quote w : exists items, alike (seq_of items) (Lit same w) /\ forall st g al sq nx nm,
    run (mkP Normal st (mkF g al sq false) nx nm) (re_quote special space w) = Some (mkP Normal st (mkF g al (rev items ++ sq) false) nx nm).
  Proof.
    unfold re_quote, all_space. destruct w as [|c w]; [exists []; split; [apply alike_refl|reflexivity]|]. cbn [is_nil negb andb].
    destruct (forallb space (c :: w)) eqn:F; cbn [negb].
    - destruct (1 <? length (c :: w)) eqn:L.
      + exists [Lit same (c :: w)]. split; [apply sem_seq_eps, alike_refl|]. intros. rewrite run_app, run_open, run_app, run_spaces, run_close by auto.
        cbn [f_group]. unfold add_item, alt_of. cbn [f_seq f_alts f_group app rev]. rewrite app_nil_r. cbn [map].
        rewrite <- seq_lit. cbn [is_nil map rev app fold_left]. rewrite rev_app_distr, rev_involutive. reflexivity.
      + exists (map lit1 (c :: w)). split; [rewrite seq_lit; apply alike_refl|]. intros. rewrite run_spaces by auto. reflexivity.
    - exists (map lit1 (c :: w)). split; [rewrite seq_lit; apply alike_refl|]. intros. rewrite run_escape. reflexivity.
  Qed.
  Lemma run_join l : l <> [] -> exists al' sq',
    (forall st g al nx nm, run (mkP Normal st (mkF g al [] false) nx nm) (sjoin (u "|") (map (re_quote special space) l)) = Some (mkP Normal st (mkF g (al' ++ al) sq' false) nx nm)) /\
    Forall2 alike (rev (seq_of (rev sq') :: al')) (map (Lit same) l).
  Proof.
    intros N. induction l as [|w l IH]; [congruence|].
    destruct (run_quote w) as (items & A & E). destruct l as [|w2 l].
    - cbn [map sjoin]. exists [], (rev items). split; [intros; rewrite E, app_nil_r; auto|]. cbn [rev map app]. rewrite rev_involutive. auto.
    - destruct (IH ltac:(discriminate)) as (al' & sq' & E' & A').
      exists (al' ++ [seq_of items]), sq'. split.
      + intros st g al nx nm. specialize (E' st g (seq_of items :: al) nx nm). cbn [map sjoin] in E' |- *. rewrite run_app, E, app_nil_r. rewrite run_app.
        cbn [prun pstep p_mode u]. unfold normal. cbn [andb N.eqb Pos.eqb p_stack p_cur f_group f_alts f_seq p_next p_names].
        change (run (mkP Normal st (mkF g (seq_of (rev (rev items)) :: al) [] false) nx nm) (sjoin (u "|") (map (re_quote special space) (w2 :: l))) = Some (mkP Normal st (mkF g ((al' ++ [seq_of items]) ++ al) sq' false) nx nm)).
        rewrite rev_involutive, <- app_assoc. exact E'.
      + cbn [rev] in A' |- *. rewrite rev_app_distr. cbn [rev app]. constructor; auto.
  Qed.
  Lemma alt_of_rs f rs r t : rev (seq_of (rev (f_seq f)) :: f_alts f) = rs -> Forall2 alike rs (map (Lit same) (r :: t)) ->
    alike (alt_of f) (fold_left Alt (map (Lit same) t) (Lit same r)).
  Proof.
    intros E F. unfold alt_of. rewrite E. inversion F; subst. apply sem_alts; auto.
  Qed.
End Read.

(** ** matching with trees that match alike *)
Definition same_ends (r r' : re) : Prop := forall s, option_map snd (re_match r s) = option_map snd (re_match r' s).
Lemma alike_ends r r' : alike r r' -> same_ends r r'.
Proof. intros A s. now rewrite (alike_match r r' s A). Qed.
Lemma grp_ends i r : same_ends (Grp i r) r.
Proof.
  intros s. unfold re_match. assert (H : orel (fun x y => snd x = snd y) (rmatch (Grp i r) s [] (fun s g => Some (g, s))) (rmatch r s [] (fun s g => Some (g, s)))).
  { cbn [rmatch]. apply (alike_refl r); auto. intros; subst. reflexivity. }
  destruct (rmatch (Grp i r) s [] _) as [[? ?]|], (rmatch r s [] _) as [[? ?]|]; cbn in H |- *; try tauto. congruence.
Qed.
Lemma ends_trans a b c : same_ends a b -> same_ends b c -> same_ends a c.
Proof. intros H1 H2 s. rewrite H1. auto. Qed.
Lemma ends_search r r' : same_ends r r' -> forall s, re_search r s = re_search r' s.
Proof.
  intros E s. induction s as [|c s IH]; cbn [re_search]; match goal with |- context [re_match r ?s] => specialize (E s) end;
    destruct (re_match r _) as [[? ?]|], (re_match r' _) as [[? ?]|]; cbn in E; try discriminate; auto; try congruence.
  now rewrite IH.
Qed.
Lemma ends_split r r' : same_ends r r' -> forall n s, re_split r n s = re_split r' n s.
Proof.
  intros E n s. unfold re_split. generalize (length s) as f. intros f. revert n s.
  induction f as [|f IH]; intros [[|n]|] s; cbn [re_split_fuel]; auto; rewrite (ends_search r r' E); destruct (re_search r' s) as [[[? ?] ?]|]; auto; now rewrite IH.
Qed.
(** trees without groups *)
Fixpoint plain_re (r : re) : bool :=
  match r with Eps | Chr _ | Eol => true | Seq a b | Alt a b => plain_re a && plain_re b | Star a => plain_re a | Grp _ _ => false end.
Lemma plain_sem G r : plain_re r = true -> sem G r r.
Proof.
  induction r; cbn; intros P; try discriminate; try (apply andb_prop in P; destruct P); [apply sem_eps|apply sem_chr; auto|apply sem_seq; auto|apply sem_alt; auto|apply sem_star; auto|apply sem_eol].
Qed.
Lemma plain_groups r s : plain_re r = true -> forall g t, re_match r s = Some (g, t) -> g = [].
Proof.
  intros P g t E. unfold re_match in E.
  assert (H : orel (fun (x y : groups * str) => fst x = []) (rmatch r s [] (fun s g => Some (g, s))) (rmatch r s [] (fun s g => Some (g, s)))).
  { apply (plain_sem (fun g g' => g = []) r P); auto. }
  rewrite E in H. exact H.
Qed.
Lemma grp_groups i r s : plain_re r = true -> forall g t, re_match (Grp i r) s = Some (g, t) -> g = [(i, firstn (length s - length t) s)].
Proof.
  intros P g t E. unfold re_match in E.
  assert (H : orel (fun (x y : groups * str) => fst x = [(i, firstn (length s - length (snd x)) s)]) (rmatch (Grp i r) s [] (fun s g => Some (g, s))) (rmatch (Grp i r) s [] (fun s g => Some (g, s)))).
  { cbn [rmatch]. apply (plain_sem (fun g g' => g = []) r P); auto. intros s1 g1 g1' ->. cbn. reflexivity. }
  rewrite E in H. exact H.
Qed.
Lemma plain_lit p w : plain_re (Lit p w) = true.
Proof. induction w; cbn; auto. Qed.
Lemma plain_alts l r : plain_re r = true -> forallb plain_re l = true -> plain_re (fold_left Alt l r) = true.
Proof. revert r. induction l as [|a l IH]; intros r H F; cbn in *; auto. apply andb_prop in F. destruct F. apply IH; auto. cbn. now rewrite H, H0. Qed.
Lemma plain_separators seps separate : plain_re (separators_re seps separate) = true.
Proof.
  assert (A : plain_re (alternatives (sort longer seps)) = true).
  { unfold alternatives. destruct (sort longer seps) as [|w l]; cbn [map]; auto. apply plain_alts; [apply plain_lit|]. rewrite forallb_forall. intros x Hx. apply in_map_iff in Hx. destruct Hx as (y & <- & _). apply plain_lit. }
  unfold separators_re. destruct separate; auto. cbn. now rewrite A.
Qed.

Section Separators.
  Context (special space : chr -> bool).
  Context (Hmeta : forall c, meta c = true -> special c = true) (Halnum : forall c, special c = true -> ascii_alnum c = false)
          (Hspace : forall c, space c = true -> meta c = false).
  Notation run := (prun N.eqb space false).
  Lemma sort_some seps : seps <> [] -> sort longer seps <> [].
  Proof.
    intros N. destruct seps as [|w l]; [congruence|]. intros E. assert (I : In w (sort longer (w :: l))) by (apply in_sort; left; auto). rewrite E in I. destruct I.
  Qed.
  Lemma alternatives_alike seps al sq g : sort longer seps <> [] ->
    Forall2 alike (rev (seq_of (rev sq) :: al)) (map (Lit N.eqb) (sort longer seps)) -> alike (alt_of (mkF g al sq false)) (alternatives (sort longer seps)).
  Proof.
    intros N A. unfold alternatives. destruct (sort longer seps) as [|r t]; [congruence|]. cbn [map]. apply (alt_of_rs N.eqb (mkF g al sq false) _ r t eq_refl); auto.
  Qed.
  Lemma run_plus seps : seps <> [] -> exists r, alike r (separators_re seps false) /\ forall st g al sq rp nx nm,
    run (mkP Normal st (mkF g al sq rp) nx nm) (separators_to_re special space seps false false) = Some (mkP Normal st (mkF g al (r :: sq) true) nx nm).
  Proof.
    intros N. pose proof (sort_some seps N) as N'.
    destruct (run_join special space Hmeta Halnum Hspace N.eqb (sort longer seps) N') as (al0 & sq0 & E & R).
    exists (Plus (alt_of (mkF None al0 sq0 false))). split; [apply sem_plus, alternatives_alike; auto|].
    intros st g al sq rp nx nm. unfold separators_to_re. rewrite run_app, run_open, run_app, E, app_nil_r. reflexivity.
  Qed.
  Lemma run_pattern seps separate : seps <> [] -> forall st g nx nm, exists al sq rp,
    run (mkP Normal st (mkF g [] [] false) nx nm) (separators_to_re special space seps separate false) = Some (mkP Normal st (mkF g al sq rp) nx nm) /\
    alike (alt_of (mkF g al sq rp)) (separators_re seps separate).
  Proof.
    intros N st g nx nm. destruct separate.
    - pose proof (sort_some seps N) as N'. destruct (run_join special space Hmeta Halnum Hspace N.eqb (sort longer seps) N') as (al & sq & E & R).
      exists al, sq, false. split; [unfold separators_to_re; rewrite E, app_nil_r; auto|]. apply alternatives_alike; auto.
    - destruct (run_plus seps N) as (r & A & E). exists [], [r], true. split; [apply E|].
      unfold alt_of. cbn [f_seq f_alts rev app fold_left seq_of fold_right]. apply sem_seq_eps; auto.
  Qed.
  Lemma quote_first w : w <> [] -> exists c t, re_quote special space w = c :: t /\ (c =? 63)%N = false.
  Proof.
    intros N. destruct w as [|c w]; [congruence|].
    assert (Q : special c = false -> (c =? 63)%N = false) by (intros S; destruct (N.eqb_spec c 63); auto; subst; rewrite Hmeta in S; [discriminate|reflexivity]).
    unfold re_quote, all_space. cbn [is_nil negb andb]. destruct (forallb space (c :: w)) eqn:F; cbn [negb].
    - cbn [forallb] in F. apply andb_prop in F. destruct F as [F _]. destruct (1 <? length (c :: w)); [exists 40%N, (u "?:" ++ (c :: w) ++ u ")"); auto|].
      exists c, w. split; auto. destruct (N.eqb_spec c 63); auto. subst. apply Hspace in F. discriminate.
    - cbn [re_escape flat_map]. destruct (special c) eqn:S; [exists 92%N | exists c]; eexists; split; try reflexivity; auto.
  Qed.
  Lemma pattern_first seps separate : seps <> [] -> separators_to_re special space seps separate false = [] \/
    exists c t, separators_to_re special space seps separate false = c :: t /\ (c =? 63)%N = false.
  Proof.
    intros N. unfold separators_to_re. destruct separate; [|right; eexists; eexists; split; [reflexivity|auto]].
    destruct (sort longer seps) as [|w l] eqn:E; [left; reflexivity|]. destruct w as [|a w].
    - destruct l as [|w2 l]; [left; reflexivity|right]. exists 124%N. eexists. split; reflexivity.
    - right. destruct (quote_first (a :: w) ltac:(discriminate)) as (c & t & Q & C). destruct l as [|w2 l]; cbn [map sjoin]; rewrite Q; eexists; eexists; split; [reflexivity|auto|reflexivity|auto].
  Qed.
  Lemma compile_pattern seps separate keep : seps <> [] -> exists r,
    compile N.eqb space false (separators_to_re special space seps separate keep) = Some (r, []) /\
    alike r (if keep then Grp 1 (separators_re seps separate) else separators_re seps separate).
  Proof.
    intros N. unfold compile, pinit. destruct keep.
    - assert (E : separators_to_re special space seps separate true = u "(" ++ separators_to_re special space seps separate false ++ u ")") by reflexivity.
      rewrite E, run_app. clear E.
      destruct (run_pattern seps separate N [mkF None [] [] false] (Some 1) 2 []) as (al & sq & rp & E & A).
      change (run (mkP Normal [] (mkF None [] [] false) 1 []) (u "(")) with (Some (mkP Open [] (mkF None [] [] false) 1 [])). cbv iota. rewrite run_app.
      destruct (pattern_first seps separate N) as [P|(c & t & P & C)].
      { rewrite P in *. cbn [prun] in E. injection E as <- <- <-. cbn [prun pstep p_mode]. eexists. split; [reflexivity|].
        change (alike (Seq (Grp 1 (alt_of (mkF (Some 1) [] [] false))) Eps) (Grp 1 (separators_re seps separate))). apply sem_seq_eps. apply sem_grp; [congruence|exact A]. }
      assert (E2 : run (mkP Open [] (mkF None [] [] false) 1 []) (separators_to_re special space seps separate false) = Some (mkP Normal [mkF None [] [] false] (mkF (Some 1) al sq rp) 2 [])).
      { rewrite P in *. cbn [prun pstep p_mode] in *. rewrite C. exact E. }
      rewrite E2, run_close. cbn [p_mode p_stack p_cur p_names f_group]. eexists. split; [reflexivity|].
      unfold alt_of at 1. cbn [add_item f_seq f_alts rev app fold_left seq_of fold_right]. apply sem_seq_eps. apply sem_grp; [congruence|exact A].
    - destruct (run_pattern seps separate N [] None 1 []) as (al & sq & rp & E & A). rewrite E. cbn [p_mode p_stack p_cur p_names]. eexists. split; [reflexivity|exact A].
  Qed.
  (** the pattern with something before it *)
  Lemma compile_left seps : seps <> [] -> Forall (fun w => w <> []) seps -> exists r,
    compile N.eqb space false (left_pattern special space seps) = Some (r, []) /\ alike r (separators_re seps false).
  Proof.
    intros N F. unfold compile, pinit, left_pattern. rewrite run_app.
    change (run (mkP Normal [] (mkF None [] [] false) 1 []) (u "^")) with (Some (mkP Normal [] (mkF None [] [Eps] false) 1 [])). cbv iota.
    destruct (run_plus seps N) as (r & A & E). rewrite E. eexists. split; [reflexivity|].
    unfold alt_of. cbn [f_seq f_alts rev app fold_left seq_of fold_right]. apply sem_eps_seq, sem_seq_eps; auto.
  Qed.
  Lemma compile_right seps : seps <> [] -> Forall (fun w => w <> []) seps -> exists r,
    compile N.eqb space false (right_pattern special space seps) = Some (r, []) /\ alike r (Seq (separators_re seps false) Eol).
  Proof.
    intros N F. unfold compile, pinit, right_pattern. rewrite run_app.
    destruct (run_plus seps N) as (r & A & E). rewrite E. eexists. split; [reflexivity|].
    unfold alt_of. cbn [f_seq f_alts rev app fold_left seq_of fold_right add_item p_cur]. apply sem_seq; [auto|]. apply sem_seq_eps, sem_eol.
  Qed.
  Lemma compile_comment markers : markers <> [] -> Forall (fun w => w <> []) markers -> exists r,
    compile N.eqb space false (comment_pattern special space markers) = Some (r, []) /\ alike r (Seq (Star (Chr space)) (separators_re markers false)).
  Proof.
    intros N F. unfold compile, pinit, comment_pattern. rewrite run_app.
    destruct (run_plus markers N) as (r & A & E).
    change (run (mkP Normal [] (mkF None [] [] false) 1 []) (u "\s*")) with (Some (mkP Normal [] (mkF None [] [Star (Chr space)] true) 1 [])). cbv iota.
    rewrite E. eexists. split; [reflexivity|].
    unfold alt_of. cbn [f_seq f_alts rev app fold_left seq_of fold_right]. apply sem_seq; [apply alike_refl|]. apply sem_seq_eps; auto.
  Qed.
End Separators.
