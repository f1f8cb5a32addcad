(** Parsing, and comparison with the PEP 440 order. *)
From Verif Require Import VersionModel VersionSpec VersionProof VersionParse PyStrProof RegexProof.

(** the fields Version stores for the parts of a version string *)
Definition interp (p : parts) : result version :=
  match (match p_pre p with None => Some Final | Some (l, _) => level_of l end) with
  | None => Err AssertionError
  | Some lv =>
      Ok (mkV (option_map int_of (p_epoch p)) (clip (map int_of (split1 (fun c => (c =? 46)%N) (p_release p)))) lv
              (match p_pre p with Some (_, Some n) => Some (int_of n) | _ => None end)
              (match p_post p with Some (Some n) => Some (int_of n) | _ => None end)
              (match p_dev p with Some (Some n) => Some (int_of n) | _ => None end)
              (option_map (split1 is_sep) (p_local p)))
  end.
Lemma parse_captured s g rest p : re_match version_re s = Some (g, rest) -> captured p g -> parse s = interp p.
Proof.
  intros M (G0 & G1 & G2 & G3 & G46 & G78 & G9). unfold parse, interp. rewrite M, G0, G1, G2, G3, G9.
  destruct (p_pre p) as [[l n]|] eqn:Ep; cbn [option_map fst].
  - destruct (level_of l) as [lv|] eqn:L; auto.
    assert (NF : match lv with Final => true | _ => false end = false).
    { unfold level_of in L. repeat match type of L with (if ?b then _ else _) = _ => destruct b end; try discriminate L; injection L as <-; reflexivity. }
    rewrite NF. cbn [andb].
    destruct (p_post p) as [[n1|]|] eqn:Eo; destruct (p_dev p) as [n2|] eqn:Ed.
    all: try (destruct G46 as [(d & Q & H4 & H5 & H6)|(l' & H4 & H5 & H6)]; try discriminate Q; try (injection Q as ->); rewrite H4, H5, ?H6).
    all: try (destruct G46 as (H4 & H5 & H6); rewrite H4, H6).
    all: try (destruct G78 as (l2 & H7 & H8); rewrite H7, H8). all: try (destruct G78 as (H7 & H8); rewrite H7, H8).
    all: try (destruct n2); destruct n; reflexivity.
  - cbn [is_none andb negb].
    destruct (p_post p) as [[n1|]|] eqn:Eo; destruct (p_dev p) as [n2|] eqn:Ed.
    all: try (destruct G46 as [(d & Q & H4 & H5 & H6)|(l' & H4 & H5 & H6)]; try discriminate Q; try (injection Q as ->); rewrite H4, H5, ?H6).
    all: try (destruct G46 as (H4 & H5 & H6); rewrite H4, H6).
    all: try (destruct G78 as (l2 & H7 & H8); rewrite H7, H8). all: try (destruct G78 as (H7 & H8); rewrite H7, H8).
    all: try (destruct n2); reflexivity.
Qed.
Lemma parse_spec s : match parse s with
  | Ok v => exists p, pep440 s p /\ interp p = Ok v
  | Err e => (e = ValueError /\ forall p, ~ pep440 s p) \/ (e = AssertionError /\ exists p, pep440 s p /\ interp p = Err AssertionError)
  end.
Proof.
  destruct (re_match version_re s) as [[g rest]|] eqn:M.
  - destruct (match_pep440 _ _ _ M) as (p & P & C). rewrite (parse_captured _ _ _ _ M C).
    destruct (interp p) as [v|e] eqn:I; eauto. right.
    assert (e = AssertionError) as ->.
    { unfold interp in I. destruct (match p_pre p with None => Some Final | Some (l, _) => level_of l end); congruence. }
    eauto.
  - unfold parse. rewrite M. left. split; auto. intros p P. exact (pep440_match _ _ P M).
Qed.

(** ---- the order ---- *)
Definition refl (c : comparison) (lt eq : Prop) : Prop := (c = Lt <-> lt) /\ (c = Eq <-> eq).
Lemma refl_then c1 l1 e1 c2 l2 e2 : refl c1 l1 e1 -> refl c2 l2 e2 -> refl (cmp_then c1 c2) (l1 \/ (e1 /\ l2)) (e1 /\ e2).
Proof.
  unfold refl. intros [A1 A2] [B1 B2]. destruct c1; cbn.
  - assert (e1) by tauto. assert (~ l1) by (intros H'; apply A1 in H'; discriminate). tauto.
  - assert (l1) by tauto. assert (~ e1) by (intros H'; apply A2 in H'; discriminate). split; split; intros; try tauto; discriminate.
  - assert (~ l1) by (intros H'; apply A1 in H'; discriminate). assert (~ e1) by (intros H'; apply A2 in H'; discriminate).
    split; split; intros; try tauto; discriminate.
Qed.
Lemma refl_Z x y : refl (x ?= y)%Z (x < y)%Z (x = y).
Proof. split; [apply Z.compare_lt_iff|apply Z.compare_eq_iff]. Qed.
Lemma refl_N x y : refl (x ?= y)%N (x < y)%N (x = y).
Proof. split; [apply N.compare_lt_iff|apply N.compare_eq_iff]. Qed.
Lemma refl_list {A B} (f : A -> A -> comparison) (m : A -> B) (lt : B -> B -> Prop) a : forall b,
  (forall x y, In x a -> In y b -> refl (f x y) (lt (m x) (m y)) (m x = m y)) ->
  refl (cmp_list f a b) (lex lt (map m a) (map m b)) (map m a = map m b).
Proof.
  induction a as [|x a IH]; intros [|y b] H; cbn [cmp_list map].
  - split; split; intros Q; auto; try discriminate. inversion Q.
  - split; split; intros Q; auto; try discriminate. constructor.
  - split; split; intros Q; try discriminate. inversion Q.
  - pose proof (refl_then _ _ _ _ _ _ (H x y (or_introl eq_refl) (or_introl eq_refl)) (IH b (fun x y i j => H x y (or_intror i) (or_intror j)))) as [R1 R2].
    split.
    + rewrite R1. split.
      * intros [L|[E L]]; [now constructor|]. rewrite E. now constructor.
      * intros L. inversion L; subst; auto.
    + rewrite R2. split; [intros [-> ->]; auto|]. intros Q. injection Q as -> ->. auto.
Qed.
Lemma refl_iff c lt eq lt' eq' : refl c lt eq -> (lt <-> lt') -> (eq <-> eq') -> refl c lt' eq'.
Proof. unfold refl. tauto. Qed.

(** releases *)
Definition nonnegs (l : list Z) : Prop := Forall (fun z => (0 <= z)%Z) l.
Lemma clip_rev_last l x : clip_rev (l ++ [x]) <> [] /\
  clip_rev (l ++ [x]) = match clip_rev (l ++ [x]) with [] => [] | y => y end.
Proof. split; [|destruct (clip_rev (l ++ [x])); auto]. induction l as [|y l IH]; cbn; [discriminate|].
  destruct (l ++ [x]) eqn:E; [discriminate|]. destruct (y =? 0)%Z; auto. discriminate. Qed.
Lemma clip_snoc l x : l <> [] -> clip (l ++ [x]) = if (x =? 0)%Z then clip l else l ++ [x].
Proof.
  intros NE. unfold clip. rewrite rev_app_distr. cbn.
  destruct (rev l) as [|y r] eqn:E. { apply (f_equal (@rev Z)) in E. rewrite rev_involutive in E. cbn in E. congruence. }
  destruct (x =? 0)%Z; auto. rewrite <- E. cbn. now rewrite rev_involutive.
Qed.
Lemma significant_snoc l x : significant (l ++ [x]) = if (x =? 0)%Z then significant l else l ++ [x].
Proof.
  induction l as [|y l IH]; cbn; [destruct (x =? 0)%Z; auto|].
  rewrite IH. destruct (x =? 0)%Z; auto. destruct (l ++ [x]) eqn:E; auto. destruct l; discriminate.
Qed.
Lemma clip_significant l : l <> [] -> clip l = match significant l with [] => [0%Z] | s => s end.
Proof.
  induction l as [|x l IH] using rev_ind; intros NE; [congruence|].
  destruct l as [|y l].
  - cbn. destruct (x =? 0)%Z eqn:E; auto. apply Z.eqb_eq in E. now subst.
  - rewrite clip_snoc, significant_snoc by discriminate. destruct (x =? 0)%Z; [apply IH; discriminate|]. reflexivity.
Qed.
Lemma significant_nonneg l : nonnegs l -> nonnegs (significant l).
Proof.
  unfold nonnegs. induction 1 as [|x l Hx Hl IH]; cbn; auto.
  destruct (significant l); [destruct (x =? 0)%Z; auto|]. constructor; auto.
Qed.
Lemma significant_zero_hd l t : significant l = 0%Z :: t -> t <> [].
Proof.
  destruct l as [|x l]; cbn; [discriminate|]. destruct (significant l) as [|y r] eqn:E.
  - destruct (x =? 0)%Z eqn:Q; [discriminate|]. intros H. injection H as -> _. discriminate.
  - intros H. injection H as _ <-. discriminate.
Qed.
Lemma refl_release a b : a <> [] -> b <> [] -> nonnegs a -> nonnegs b ->
  refl (cmp_list Z.compare (clip a) (clip b)) (lex Z.lt (significant a) (significant b)) (significant a = significant b).
Proof.
  intros NA NB PA PB. rewrite !clip_significant by auto.
  pose proof (refl_list Z.compare (fun z => z) Z.lt (significant a) (significant b) (fun x y _ _ => refl_Z x y)) as R.
  rewrite !map_id in R.
  apply significant_nonneg in PA, PB.
  pose proof (significant_zero_hd a) as ZA. pose proof (significant_zero_hd b) as ZB.
  destruct (significant a) as [|x s], (significant b) as [|y t]; auto.
  - inversion PB; subst. cbn [cmp_list]. split; split; intros Q; try discriminate; try (constructor; fail).
    + destruct (0 ?= y)%Z eqn:C; auto; [|apply Z.compare_gt_iff in C; lia].
      apply Z.compare_eq in C. subst y. destruct t as [|z t]; [exfalso; exact (ZB _ eq_refl eq_refl)|reflexivity].
    + exfalso. destruct (0 ?= y)%Z eqn:C; cbn in Q; try discriminate. apply Z.compare_eq in C. subst y.
      destruct t as [|z t]; [exact (ZB _ eq_refl eq_refl)|discriminate].
  - inversion PA; subst. cbn [cmp_list]. split; split; intros Q; try discriminate; try (inversion Q; fail).
    + exfalso. destruct (x ?= 0)%Z eqn:C; cbn in Q; try discriminate; [|rewrite Z.compare_lt_iff in C; lia].
      destruct s; discriminate.
    + exfalso. destruct (x ?= 0)%Z eqn:C; cbn in Q; try discriminate. apply Z.compare_eq in C. subst x.
      destruct s as [|z s]; [exact (ZA _ eq_refl eq_refl)|discriminate].
Qed.
Lemma release_nonneg s : nonnegs (map int_of (split1 (fun c => (c =? 46)%N) s)) /\ map int_of (split1 (fun c => (c =? 46)%N) s) <> [].
Proof.
  split.
  - unfold nonnegs. apply Forall_forall. intros x H. apply in_map_iff in H. destruct H as (y & <- & _). apply int_of_nonneg.
  - intros H. apply map_eq_nil in H. exact (split1_nonnil _ _ H).
Qed.

(** local versions *)
Lemma lower_split l : map lower l = l -> Forall (fun x => map lower x = x) (split1 is_sep l).
Proof.
  induction l as [|c l IH]; cbn; [repeat constructor|]. intros H. injection H as Hc Hl. specialize (IH Hl).
  destruct (is_sep c); [constructor; auto|]. destruct (split1 is_sep l); [repeat constructor; cbn; now rewrite Hc|].
  inversion IH; subst. constructor; auto. cbn. congruence.
Qed.
Lemma refl_seg a b : map lower a = a -> map lower b = b ->
  refl (cmp_local (local_seg a) (local_seg b)) (pair_lt (ext_lt Z.lt) (lex N.lt) (pep_seg a) (pep_seg b)) (pep_seg a = pep_seg b).
Proof.
  intros La Lb. unfold local_seg, pep_seg. change (match a with [] => false | _ :: _ => forallb is_digit a end) with (is_digits a).
  change (match b with [] => false | _ :: _ => forallb is_digit b end) with (is_digits b). rewrite La, Lb.
  destruct (is_digits a), (is_digits b); cbn [cmp_local]; unfold pair_lt; cbn [fst snd ext_lt].
  - eapply refl_iff; [apply refl_Z| |].
    + split; auto. intros [H|[_ H]]; auto. inversion H.
    + split; [intros ->; auto|]. congruence.
  - split; split; intros Q; try discriminate. destruct Q as [[]|[Q _]]; discriminate.
  - split; split; intros Q; try discriminate; auto.
  - eapply refl_iff; [apply (refl_list N.compare (fun z => z) N.lt); intros; apply refl_N| |]; rewrite !map_id.
    + split; auto. intros [[]|[_ H]]; auto.
    + split; [intros ->; auto|congruence].
Qed.
Lemma refl_local p q : no_upper p -> no_upper q ->
  refl (cmp_list cmp_local (match option_map (split1 is_sep) (p_local p) with None => [] | Some l => map local_seg l end)
                           (match option_map (split1 is_sep) (p_local q) with None => [] | Some l => map local_seg l end))
       (lex (pair_lt (ext_lt Z.lt) (lex N.lt)) (pep_local p) (pep_local q)) (pep_local p = pep_local q).
Proof.
  intros Up Uq. unfold pep_local.
  assert (G : forall a b, Forall (fun x => map lower x = x) a -> Forall (fun x => map lower x = x) b ->
    refl (cmp_list cmp_local (map local_seg a) (map local_seg b)) (lex (pair_lt (ext_lt Z.lt) (lex N.lt)) (map pep_seg a) (map pep_seg b)) (map pep_seg a = map pep_seg b)).
  { intros a b Fa Fb. pose proof (refl_list (fun x y => cmp_local (local_seg x) (local_seg y)) pep_seg (pair_lt (ext_lt Z.lt) (lex N.lt)) a b) as R.
    rewrite Forall_forall in Fa, Fb.
    assert (E : cmp_list (fun x y => cmp_local (local_seg x) (local_seg y)) a b = cmp_list cmp_local (map local_seg a) (map local_seg b)).
    { clear. revert b. induction a as [|x a IH]; intros [|y b]; cbn; auto. now rewrite IH. }
    rewrite E in R. apply R. intros. apply refl_seg; auto. }
  assert (Lp : Forall (fun x => map lower x = x) (match p_local p with None => [] | Some l => split1 is_sep l end)).
  { unfold no_upper in Up. destruct (p_local p); [now apply lower_split|constructor]. }
  assert (Lq : Forall (fun x => map lower x = x) (match p_local q with None => [] | Some l => split1 is_sep l end)).
  { unfold no_upper in Uq. destruct (p_local q); [now apply lower_split|constructor]. }
  specialize (G _ _ Lp Lq).
  destruct (p_local p), (p_local q); exact G.
Qed.

(** pre, post and dev *)
Lemma level_phase l lv : level_of l = Some lv -> level_int lv = (pre_phase l - 4)%Z /\ (level_int lv < 0)%Z.
Proof.
  unfold level_of. intros H.
  repeat match type of H with (if ?b then _ else _) = _ => destruct b eqn:? end; try discriminate; injection H as <-;
  repeat match goal with H : (_ || _)%bool = true |- _ => apply orb_true_iff in H; destruct H end;
  match goal with H : str_eqb _ _ = true |- _ => apply str_eqb_eq in H; subst l end; split; reflexivity.
Qed.

Section Phase.
  Context (p q : parts) (v w : version) (Ip : interp p = Ok v) (Iq : interp q = Ok w).
  Context (Xp : explicit p) (Xq : explicit q).
  Context (Gpq : pure_dev p -> p_pre q = None) (Gqp : pure_dev q -> p_pre p = None).
  Definition big_phase : comparison :=
    cmp_then (k_level (key v) ?= k_level (key w))%Z (cmp_then (k_serial (key v) ?= k_serial (key w))%Z
      (cmp_then (k_post (key v) ?= k_post (key w))%Z (cmp_dev (k_dev (key v)) (k_dev (key w))))).
  Lemma refl_post : refl (k_post (key v) ?= k_post (key w))%Z (ext_lt Z.lt (pep_post p) (pep_post q)) (pep_post p = pep_post q).
  Proof.
    unfold interp in Ip, Iq.
    destruct (match p_pre p with None => Some Final | Some (l, _) => level_of l end); [|discriminate].
    destruct (match p_pre q with None => Some Final | Some (l, _) => level_of l end); [|discriminate].
    injection Ip as <-. injection Iq as <-. cbn [key k_post v_post]. unfold pep_post. destruct Xp as [X1 _], Xq as [X2 _].
    destruct (p_post p) as [[d|]|]; [| congruence |]; destruct (p_post q) as [[d'|]|]; try congruence; cbn [ext_lt num].
    - eapply refl_iff; [apply refl_Z|tauto|]. split; [intros ->; auto|congruence].
    - pose proof (int_of_nonneg d). eapply refl_iff; [apply refl_Z| |]; split; try lia; try tauto; discriminate.
    - pose proof (int_of_nonneg d'). eapply refl_iff; [apply refl_Z| |]; split; try lia; try tauto; discriminate.
    - split; split; try discriminate; auto; intros [].
  Qed.
  Lemma refl_dev : refl (cmp_dev (k_dev (key v)) (k_dev (key w))) (ext_lt Z.lt (pep_dev p) (pep_dev q)) (pep_dev p = pep_dev q).
  Proof.
    unfold interp in Ip, Iq.
    destruct (match p_pre p with None => Some Final | Some (l, _) => level_of l end); [|discriminate].
    destruct (match p_pre q with None => Some Final | Some (l, _) => level_of l end); [|discriminate].
    injection Ip as <-. injection Iq as <-. cbn. unfold pep_dev. destruct Xp as [_ X1], Xq as [_ X2].
    destruct (p_dev p) as [[d|]|]; [| congruence |]; destruct (p_dev q) as [[d'|]|]; try congruence; cbn.
    - eapply refl_iff; [apply refl_Z|tauto|]. split; [intros ->; auto|congruence].
    - split; split; auto; discriminate.
    - split; split; try discriminate; intros [].
    - split; split; try discriminate; auto; intros [].
  Qed.
  Lemma refl_phase : refl big_phase
    (pair_lt (ext_lt (pair_lt Z.lt Z.lt)) (pair_lt (ext_lt Z.lt) (ext_lt Z.lt)) (pep_pre p, (pep_post p, pep_dev p)) (pep_pre q, (pep_post q, pep_dev q)))
    (pep_pre p = pep_pre q /\ pep_post p = pep_post q /\ pep_dev p = pep_dev q).
  Proof.
    pose proof refl_post as RP. pose proof refl_dev as RD. pose proof (refl_then _ _ _ _ _ _ RP RD) as RPD.
    unfold big_phase, pair_lt. cbn [fst snd].
    assert (PN : forall x y, (p_pre x = None -> p_pre y = None -> (pep_pre x = pep_pre y) \/ pep_pre x <> pep_pre y)) by (intros x y; unfold pep_pre; intros -> ->;
      destruct (p_post x), (p_dev x), (p_post y), (p_dev y); (left; reflexivity) || (right; discriminate)).
    unfold interp in Ip, Iq. unfold pep_pre in *.
    destruct (p_pre p) as [[l n]|] eqn:Ep; [destruct (level_of l) as [lv|] eqn:Lp; [|discriminate]|];
    (destruct (p_pre q) as [[l' n']|] eqn:Eq; [destruct (level_of l') as [lv'|] eqn:Lq; [|discriminate]|]).
    - (* both pre-releases *)
      destruct (level_phase _ _ Lp) as [P1 P2], (level_phase _ _ Lq) as [Q1 Q2].
      assert (S1 : k_serial (key v) = num n) by (injection Ip as <-; destruct n; reflexivity).
      assert (S2 : k_serial (key w) = num n') by (injection Iq as <-; destruct n'; reflexivity).
      assert (L1 : k_level (key v) = level_int lv) by (injection Ip as <-; reflexivity).
      assert (L2 : k_level (key w) = level_int lv') by (injection Iq as <-; reflexivity).
      rewrite S1, S2, L1, L2, P1, Q1.
      pose proof (refl_then _ _ _ _ _ _ (refl_Z (pre_phase l - 4) (pre_phase l' - 4)) (refl_then _ _ _ _ _ _ (refl_Z (num n) (num n')) RPD)) as R.
      eapply refl_iff; [exact R| |]; cbn [ext_lt].
      + unfold pair_lt. cbn. split.
        * intros [H|[H [H1|[H1 H2]]]]; [left; lia|left; right; lia|]. right. split; [|exact H2]. assert (pre_phase l = pre_phase l') by lia. congruence.
        * intros [[H|H]|[H H1]]; [lia|lia|]. injection H as H2 H3. right. split; [lia|]. right. auto.
      + split.
        * intros (H & H1 & H2 & H3). split; auto. assert (pre_phase l = pre_phase l') by lia. congruence.
        * intros (H & H1 & H2). injection H as H3 H4. split; [lia|]. auto.
    - (* p pre-release, q not *)
      destruct (level_phase _ _ Lp) as [P1 P2].
      assert (L1 : k_level (key v) = level_int lv) by (injection Ip as <-; reflexivity).
      assert (L2 : k_level (key w) = 0%Z) by (injection Iq as <-; reflexivity).
      rewrite L1, L2.
      assert (C : (level_int lv ?= 0)%Z = Lt) by (apply Z.compare_lt_iff; lia). rewrite C. cbn [cmp_then].
      assert (PQ : match p_post q with None => match p_dev q with Some _ => NegInf | None => PosInf end | Some _ => PosInf end = @PosInf (Z * Z)).
      { destruct (p_post q) eqn:E1; auto. destruct (p_dev q) eqn:E2; auto. exfalso.
        assert (Some (l, n) = None) by (apply Gqp; unfold pure_dev; rewrite Eq, E1, E2; repeat split; congruence). discriminate. }
      rewrite PQ. split; split; intros H; auto; try discriminate. { left. cbn. auto. } destruct H as [H _]. discriminate.
    - (* q pre-release, p not *)
      destruct (level_phase _ _ Lq) as [Q1 Q2].
      assert (L1 : k_level (key v) = 0%Z) by (injection Ip as <-; reflexivity).
      assert (L2 : k_level (key w) = level_int lv') by (injection Iq as <-; reflexivity).
      rewrite L1, L2.
      assert (C : (0 ?= level_int lv')%Z = Gt) by (apply Z.compare_gt_iff; lia). rewrite C. cbn [cmp_then].
      assert (PQ : match p_post p with None => match p_dev p with Some _ => NegInf | None => PosInf end | Some _ => PosInf end = @PosInf (Z * Z)).
      { destruct (p_post p) eqn:E1; auto. destruct (p_dev p) eqn:E2; auto. exfalso.
        assert (Some (l', n') = None) by (apply Gpq; unfold pure_dev; rewrite Ep, E1, E2; repeat split; congruence). discriminate. }
      rewrite PQ. split; split; intros H; try discriminate; destruct H as [H|[H _]] || destruct H as [H _]; try discriminate; destruct H.
    - (* neither *)
      assert (L1 : k_level (key v) = 0%Z) by (injection Ip as <-; reflexivity).
      assert (L2 : k_level (key w) = 0%Z) by (injection Iq as <-; reflexivity).
      assert (S1 : k_serial (key v) = 0%Z) by (injection Ip as <-; reflexivity).
      assert (S2 : k_serial (key w) = 0%Z) by (injection Iq as <-; reflexivity).
      rewrite L1, L2, S1, S2. cbn [Z.compare cmp_then].
      eapply refl_iff; [exact RPD| |]; unfold pep_post, pep_dev;
      destruct (p_post p), (p_dev p), (p_post q), (p_dev q); cbn; intuition (try congruence; try discriminate).
  Qed.
End Phase.

Lemma pep_order p q v w : interp p = Ok v -> interp q = Ok w -> explicit p -> explicit q -> no_upper p -> no_upper q ->
  (pure_dev p -> p_pre q = None) -> (pure_dev q -> p_pre p = None) ->
  (v_lt v w = true <-> pep_lt p q).
Proof.
  intros Ip Iq Xp Xq Up Uq Gp Gq. rewrite v_lt_cmp.
  pose proof (refl_phase p q v w Ip Iq Xp Xq Gp Gq) as RP.
  pose proof (refl_local p q Up Uq) as RL.
  pose proof (release_nonneg (p_release p)) as [NP1 NP2]. pose proof (release_nonneg (p_release q)) as [NQ1 NQ2].
  pose proof (refl_release _ _ NP2 NQ2 NP1 NQ1) as RR.
  set (ep := match p_epoch p with None => 0%Z | Some e => int_of e end).
  set (eq := match p_epoch q with None => 0%Z | Some e => int_of e end).
  pose proof (refl_Z ep eq) as RE.
  pose proof (refl_then _ _ _ _ _ _ RE (refl_then _ _ _ _ _ _ RR (refl_then _ _ _ _ _ _ RP RL))) as [R _].
  assert (K : cmp_key (key v) (key w) = cmp_then (ep ?= eq)%Z (cmp_then (cmp_list Z.compare (clip (map int_of (split1 (fun c => (c =? 46)%N) (p_release p)))) (clip (map int_of (split1 (fun c => (c =? 46)%N) (p_release q)))))
     (cmp_then (big_phase v w) (cmp_list cmp_local (match option_map (split1 is_sep) (p_local p) with None => [] | Some l => map local_seg l end)
                           (match option_map (split1 is_sep) (p_local q) with None => [] | Some l => map local_seg l end))))).
  { unfold cmp_key, big_phase.
    assert (A : k_epoch (key v) = ep /\ k_release (key v) = clip (map int_of (split1 (fun c => (c =? 46)%N) (p_release p))) /\
       k_local (key v) = match option_map (split1 is_sep) (p_local p) with None => [] | Some l => map local_seg l end).
    { unfold interp in Ip. destruct (match p_pre p with None => Some Final | Some (l, _) => level_of l end); [|discriminate].
      injection Ip as <-. subst ep. cbn. destruct (p_epoch p); auto. }
    assert (B : k_epoch (key w) = eq /\ k_release (key w) = clip (map int_of (split1 (fun c => (c =? 46)%N) (p_release q))) /\
       k_local (key w) = match option_map (split1 is_sep) (p_local q) with None => [] | Some l => map local_seg l end).
    { unfold interp in Iq. destruct (match p_pre q with None => Some Final | Some (l, _) => level_of l end); [|discriminate].
      injection Iq as <-. subst eq. cbn. destruct (p_epoch q); auto. }
    destruct A as (-> & -> & ->), B as (-> & -> & ->). f_equal. f_equal.
    generalize (k_level (key v) ?= k_level (key w))%Z, (k_serial (key v) ?= k_serial (key w))%Z, (k_post (key v) ?= k_post (key w))%Z,
      (cmp_dev (k_dev (key v)) (k_dev (key w))). intros [] [] [] []; reflexivity. }
  rewrite K, R. unfold pep_lt, pair_lt, pep_release. cbn [fst snd]. fold ep eq. tauto.
Qed.
