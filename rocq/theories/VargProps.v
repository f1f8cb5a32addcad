(** C118: Version with arguments of any type; its properties, str, repr and operators. *)
From Verif Require Import PyStr PyStrProof Regex RegexProof VersionModel VersionSpec VersionProof VersionParse VersionProof2 VersionProof3 VersionProof4 VersionProps VersionProps2 VargModel.

(** ---- the specification ---- *)
(** an int, which may be a bool *)
Inductive an_int : obj -> Z -> Prop :=
| int_int z : an_int (OInt z) z
| int_true : an_int (OBool true) 1
| int_false : an_int (OBool false) 0.
Definition natural (o : obj) : Prop := exists z, an_int o z /\ (0 <= z)%Z.
(** None or a non-negative int *)
Definition natural_or_none (o : obj) : Prop := o = ONone \/ natural o.
(** a non-empty tuple of ints *)
Definition ints (o : obj) : Prop := exists l, o = OTuple l /\ l <> [] /\ forall x, In x l -> exists z, an_int x z.
Definition a_level (o : obj) (l : level) : Prop :=
  (o = ONone /\ l = Final) \/ (o = OStr (u "alpha") /\ l = Alpha) \/ (o = OStr (u "beta") /\ l = Beta) \/ (o = OStr (u "rc") /\ l = RC) \/ (o = OStr (u "final") /\ l = Final).
Definition a_local (o : obj) : Prop := o = ONone \/ exists l, o = OTuple l /\ l <> [] /\ forall x, In x l -> exists s, x = OStr s /\ segment s.
Definition keywords_ok (epoch release release_level serial post dev local : obj) : Prop :=
  natural_or_none epoch /\ ints release /\ (exists l, a_level release_level l) /\ natural_or_none serial /\ natural_or_none post /\ natural_or_none dev /\ a_local local.

(** ---- lemmas ---- *)
Lemma int_iff o z : an_int o z <-> int_value o = Some z.
Proof. split; [intros H; destruct H; reflexivity|]. destruct o as [|n|b| | | |]; try discriminate; [intros E|destruct b; intros E]; injection E as <-; constructor. Qed.
Lemma natural_iff o : natural o <-> nonneg_int o = true.
Proof.
  unfold natural, nonneg_int. split.
  - intros (z & A & B). apply int_iff in A. rewrite A. now apply Z.leb_le.
  - destruct (int_value o) as [z|] eqn:E; [|discriminate]. intros H. exists z. split; [now apply int_iff|now apply Z.leb_le].
Qed.
Lemma none_iff o : is_None o = true <-> o = ONone.
Proof. destruct o; split; try discriminate; auto. Qed.
Lemma none_false o : is_None o = false <-> o <> ONone.
Proof. destruct o; split; try discriminate; auto; congruence. Qed.
Lemma non_iff o : natural_or_none o <-> is_None o || nonneg_int o = true.
Proof. unfold natural_or_none. rewrite orb_true_iff, none_iff, natural_iff. tauto. Qed.
Lemma ints_iff o : ints o <-> match tuple_items o with Some l => empty l || negb (forallb (fun o => match int_value o with Some _ => true | None => false end) l) = false | None => False end.
Proof.
  split.
  - intros (l & -> & N & H). cbn [tuple_items]. apply orb_false_iff. split; [destruct l; [congruence|reflexivity]|]. apply negb_false_iff, forallb_forall. intros x I. destruct (H x I) as [z Hz]. apply int_iff in Hz. now rewrite Hz.
  - destruct o as [| | | |l|a b c l n|]; cbn [tuple_items]; try tauto; [|intros H; cbn in H; destruct l; discriminate H].
    intros H. apply orb_false_iff in H. destruct H as [H1 H2]. apply negb_false_iff in H2. rewrite forallb_forall in H2. exists l. split; auto. split; [destruct l; [discriminate|discriminate]|].
    intros x I. specialize (H2 x I). destruct (int_value x) as [z|] eqn:E; [|discriminate]. exists z. now apply int_iff.
Qed.
Lemma str_eqb_refl s : str_eqb s s = true. Proof. now apply str_eqb_eq. Qed.
Lemma level_iff o l : a_level o l <-> (if is_None o then Some Final else named_level o) = Some l.
Proof.
  split.
  - intros [[-> ->]|[[-> ->]|[[-> ->]|[[-> ->]|[-> ->]]]]]; reflexivity.
  - unfold a_level. destruct o as [| | |s| | |]; cbn [is_None named_level]; try discriminate; [intros E; injection E as <-; auto|].
    destruct (str_eqb s (u "alpha")) eqn:E1; [apply str_eqb_eq in E1; subst s; intros E; injection E as <-; auto|].
    destruct (str_eqb s (u "beta")) eqn:E2; [apply str_eqb_eq in E2; subst s; intros E; injection E as <-; auto 6|].
    destruct (str_eqb s (u "rc")) eqn:E3; [apply str_eqb_eq in E3; subst s; intros E; injection E as <-; auto 7|].
    destruct (str_eqb s (u "final")) eqn:E4; [apply str_eqb_eq in E4; subst s; intros E; injection E as <-; auto 8|discriminate].
Qed.
Lemma segment_nonempty s : segment s -> s <> [].
Proof. intros (t & [N _] & [-> | ->]); auto. destruct t; discriminate. Qed.
Lemma local_iff o : a_local o <-> is_None o || match tuple_items o with Some l => negb (empty l) && forallb local_element l | None => false end = true.
Proof.
  unfold a_local. rewrite orb_true_iff, none_iff. split; (intros [H|H]; [left; exact H|right]).
  - destruct H as (l & -> & N & H). cbn [tuple_items]. apply andb_true_iff. split; [destruct l; [congruence|reflexivity]|]. apply forallb_forall. intros x I. destruct (H x I) as (s & -> & G). cbn.
    apply andb_true_iff. split; [apply segment_nonempty in G; destruct s; [congruence|reflexivity]|now apply segment_valid].
  - destruct o as [| | | |l|a b c l n|]; cbn [tuple_items] in H; try discriminate.
    apply andb_true_iff in H. destruct H as [H1 H2]. exists l. split; auto. split; [destruct l; [discriminate|discriminate]|]. rewrite forallb_forall in H2.
    intros x I. specialize (H2 x I). destruct x as [| | |s| | |]; try discriminate. cbn in H2. apply andb_true_iff in H2. destruct H2 as [_ H2]. exists s. split; auto. now apply segment_valid.
Qed.

(** ---- the constructor ---- *)
(** Keyword arguments: accepted exactly if they are right, and then the properties are the values given (0 for no epoch or serial, 'final' for no
    release_level); ValueError otherwise. *)
Theorem C118_keywords epoch release release_level serial post dev local :
  (keywords_ok epoch release release_level serial post dev local ->
   exists p, Version_py ONone epoch release release_level serial post dev local = Ok p /\
     p_epoch p = (if is_None epoch then OInt 0 else epoch) /\ release = OTuple (p_release p) /\ a_level release_level (p_level p) /\
     p_serial p = (if is_None serial then OInt 0 else serial) /\ p_post p = post /\ p_dev p = dev /\ p_local p = local) /\
  (~ keywords_ok epoch release release_level serial post dev local -> Version_py ONone epoch release release_level serial post dev local = Err ValueError).
Proof.
  unfold keywords_ok, Version_py. cbn [is_None].
  destruct (is_None release) eqn:E0; [apply none_iff in E0; subst; split; [intros (_ & (l & E & _) & _); discriminate|auto]|].
  destruct (negb (is_None epoch) && negb (nonneg_int epoch)) eqn:E1.
  { rewrite <- negb_orb in E1. apply negb_true_iff in E1. split; [intros (H & _); apply non_iff in H; congruence|auto]. }
  rewrite <- negb_orb in E1. apply negb_false_iff in E1.
  pose proof (ints_iff release) as R. destruct (tuple_items release) as [rel|] eqn:T; [|split; [intros (_ & H & _); tauto|auto]].
  destruct (empty rel || negb (forallb _ rel)) eqn:E2; [split; [intros (_ & H & _); apply R in H; discriminate|auto]|].
  pose proof (level_iff release_level) as L. destruct (if is_None release_level then Some Final else named_level release_level) as [lv|] eqn:E3; [|split; [intros (_ & _ & (l & H) & _); apply L in H; discriminate|auto]].
  destruct (negb (is_None serial) && negb (nonneg_int serial)) eqn:E4.
  { rewrite <- negb_orb in E4. apply negb_true_iff in E4. split; [intros (_ & _ & _ & H & _); apply non_iff in H; congruence|auto]. }
  rewrite <- negb_orb in E4. apply negb_false_iff in E4.
  destruct (is_None post || nonneg_int post) eqn:E5; cbn [negb]; [|split; [intros (_ & _ & _ & _ & H & _); apply non_iff in H; congruence|auto]].
  destruct (is_None dev || nonneg_int dev) eqn:E6; cbn [negb]; [|split; [intros (_ & _ & _ & _ & _ & H & _); apply non_iff in H; congruence|auto]].
  destruct (is_None local || _) eqn:E7; cbn [negb]; [|split; [intros (_ & _ & _ & _ & _ & _ & H); apply local_iff in H; congruence|auto]].
  split.
  - intros _. eexists. split; [reflexivity|]. cbn. split; auto. split; [destruct (proj2 R eq_refl) as (l & -> & _); cbn in T; congruence|]. split; [now apply L|auto].
  - intros H. exfalso. apply H. rewrite !non_iff. repeat (split; [first [assumption | now apply R | exists lv; now apply L]|]). now apply local_iff.
Qed.
Print Assumptions C118_keywords.

(** A first argument: any keyword argument besides it that is not None raises ValueError; a str is parsed (C26-C30, C66), the object of the type of
    sys.version_info is the string of its numbers (C68), and everything else raises ValueError. *)
Theorem C118_first_argument s epoch release release_level serial post dev local : s <> ONone ->
  (~ (epoch = ONone /\ release = ONone /\ release_level = ONone /\ serial = ONone /\ post = ONone /\ dev = ONone /\ local = ONone) ->
   Version_py s epoch release release_level serial post dev local = Err ValueError) /\
  Version_py s ONone ONone ONone ONone ONone ONone ONone =
    match s with
    | OStr t => rmap pv_of (parse t)
    | OInfo a b c l n => rmap pv_of (parse (version_info_str a b c l n))
    | _ => Err ValueError
    end.
Proof.
  intros N. apply none_false in N. unfold Version_py. rewrite N. split.
  - intros H. destruct (is_None epoch && is_None release && is_None release_level && is_None serial && is_None post && is_None dev && is_None local) eqn:E; [|reflexivity].
    exfalso. apply H. rewrite !andb_true_iff, !none_iff in E. tauto.
  - destruct s; reflexivity.
Qed.
Print Assumptions C118_first_argument.

(** Whatever the arguments, the constructor raises nothing but ValueError - except for a version string with a pre-release label that is not in lower
    case, which raises AssertionError. *)
Theorem C118_only_ValueError s epoch release release_level serial post dev local e :
  Version_py s epoch release release_level serial post dev local = Err e ->
  e = ValueError \/ e = AssertionError /\ exists t p, (s = OStr t \/ exists a b c l n, s = OInfo a b c l n /\ t = version_info_str a b c l n) /\ pep440 t p /\ ~ spelled p.
Proof.
  intros H. destruct (is_None s) eqn:N.
  - apply none_iff in N. subst s. left. revert H. unfold Version_py. cbn [is_None].
    repeat match goal with |- context [match ?x with _ => _ end] => destruct x; try congruence end.
  - apply none_false in N. destruct (C118_first_argument s epoch release release_level serial post dev local N) as [A B].
    destruct (is_None epoch && is_None release && is_None release_level && is_None serial && is_None post && is_None dev && is_None local) eqn:E.
    2: { left. rewrite A in H; [congruence|]. intros (-> & -> & -> & -> & -> & -> & ->). discriminate E. }
    rewrite !andb_true_iff, !none_iff in E. destruct E as [[[[[[-> ->] ->] ->] ->] ->] ->]. rewrite B in H.
    assert (P : forall t, rmap pv_of (parse t) = Err e -> e = ValueError \/ e = AssertionError /\ exists p, pep440 t p /\ ~ spelled p).
    { intros t Ht. destruct (parse t) as [v|e'] eqn:P; [discriminate|]. injection Ht as <-. apply (C55_version_accepts t). exact P. }
    destruct s as [| | |t| |a b c l n|]; try (left; congruence); apply P in H; (destruct H as [H|(H & p & G & S)]; [left; exact H|right; split; auto; eexists; exists p; split; [|split; eauto]; eauto 10]).
Qed.
Print Assumptions C118_only_ValueError.

(** ---- the version that is made ---- *)
Definition value (o : obj) (z : option Z) : Prop := match z with Some z => an_int o z | None => o = ONone end.
(** It is the version of C67 with those numbers, True counting as 1 and False as 0; so what C27, C28, C30 and C67 say of versions holds of it. *)
Theorem C118_numbers epoch release release_level serial post dev local p :
  Version_py ONone epoch release release_level serial post dev local = Ok p ->
  exists e r l s po d lo, value epoch e /\ release = OTuple (p_release p) /\ Forall2 an_int (p_release p) r /\ a_level release_level l /\ value serial s /\ value post po /\ value dev d /\
    (match lo with Some ss => local = OTuple (map OStr ss) | None => local = ONone end) /\
    of_fields e (Some r) (Some l) s po d lo = Ok (erase p).
Proof.
  intros H. destruct (C118_keywords epoch release release_level serial post dev local) as [A B].
  assert (K : keywords_ok epoch release release_level serial post dev local).
  { unfold keywords_ok. revert H. unfold Version_py. cbn [is_None]. rewrite !non_iff, ints_iff, local_iff.
    destruct (is_None release); [discriminate|].
    destruct (negb (is_None epoch) && negb (nonneg_int epoch)) eqn:E1; [discriminate|]. rewrite <- negb_orb in E1. apply negb_false_iff in E1.
    destruct (tuple_items release) as [rel|]; [|discriminate]. destruct (empty rel || _); [discriminate|].
    destruct (if is_None release_level then Some Final else named_level release_level) as [lv|] eqn:E3; [|discriminate]. apply level_iff in E3.
    destruct (negb (is_None serial) && negb (nonneg_int serial)) eqn:E4; [discriminate|]. rewrite <- negb_orb in E4. apply negb_false_iff in E4.
    destruct (is_None post || nonneg_int post); [|discriminate]. destruct (is_None dev || nonneg_int dev); [|discriminate].
    destruct (is_None local || _); [|discriminate]. eauto 10. }
  destruct (A K) as (p' & H' & P1 & P2 & P3 & P4 & P5 & P6 & P7). assert (p' = p) by congruence. subst p'. clear A B H'.
  destruct K as (K1 & K2 & _ & K4 & K5 & K6 & K7).
  assert (V : forall o, natural_or_none o -> exists z, value o z /\ nonneg z = true /\ int_value o = z).
  { intros o [-> |(z & Hz & L)]; [exists None; cbn; auto|]. exists (Some z). cbn. split; auto. split; [now apply Z.leb_le|now apply int_iff]. }
  destruct (V _ K1) as (e & E1 & E2 & E3). destruct (V _ K4) as (s & S1 & S2 & S3). destruct (V _ K5) as (po & O1 & O2 & O3). destruct (V _ K6) as (d & D1 & D2 & D3).
  destruct K2 as (rl & R1 & R2 & R3). assert (rl = p_release p) by congruence. subst rl.
  assert (R : exists r, Forall2 an_int (p_release p) r /\ map (fun o => match int_value o with Some z => z | None => 0%Z end) (p_release p) = r).
  { revert R3. generalize (p_release p). clear. intros l H. induction l as [|x l IH]; [exists []; split; constructor|].
    destruct IH as (r & F & E); [intros y I; apply H; right; auto|]. destruct (H x (or_introl eq_refl)) as [z Hz]. exists (z :: r). split; [constructor; auto|]. cbn. apply int_iff in Hz. now rewrite Hz, E. }
  destruct R as (r & F & Er).
  assert (L : exists lo, (match lo with Some ss => local = OTuple (map OStr ss) /\ ss <> [] /\ forallb valid_segment ss = true | None => local = ONone end)).
  { destruct K7 as [-> |(l & -> & N & G)]; [exists None; reflexivity|].
    assert (T : exists ss, l = map OStr ss /\ Forall segment ss).
    { clear - G. induction l as [|x l IH]; [exists []; split; constructor|]. destruct IH as (ss & E & Q); [intros y I; apply G; right; auto|]. destruct (G x (or_introl eq_refl)) as (t & -> & T). exists (t :: ss). subst l. split; [reflexivity|constructor; auto]. }
    destruct T as (ss & -> & Q). exists (Some ss). split; auto. split; [destruct ss; [contradiction|discriminate]|]. apply forallb_forall. intros x I. rewrite Forall_forall in Q. apply segment_valid; auto. }
  destruct L as (lo & L). exists e, r, (p_level p), s, po, d, lo. do 7 (split; [auto|]).
  split; [destruct lo; [apply L|exact L]|]. unfold of_fields. rewrite E2, S2, O2, D2. cbn [negb].
  destruct r as [|x r]; [inversion F as [Z|]; congruence|]. cbn [hd_error is_none].
  assert (Lv : match lo with None => false | Some l => is_none (hd_error l) || negb (forallb valid_segment l) end = false).
  { destruct lo as [ss|]; auto. destruct L as (_ & N & G). rewrite G. destruct ss; [congruence|reflexivity]. }
  rewrite Lv. f_equal. unfold erase. rewrite P1, P4, P5, P6, P7, Er. f_equal.
  - destruct K1 as [-> |K1]; [cbn in E3; subst e; reflexivity|]. apply natural_iff in K1. destruct epoch; try discriminate; cbn in *; unfold num_of; cbn; subst e; reflexivity.
  - destruct K4 as [-> |K4]; [cbn in S3; subst s; reflexivity|]. apply natural_iff in K4. destruct serial; try discriminate; cbn in *; unfold num_of; cbn; subst s; reflexivity.
  - auto.
  - auto.
  - destruct lo as [ss|]; [|rewrite L; reflexivity]. destruct L as (-> & _). cbn. rewrite map_map. cbn. now rewrite map_id.
Qed.
Print Assumptions C118_numbers.
(** Nothing else happens to a version made from a string. *)
Theorem C118_string_numbers v : erase (pv_of v) = v.
Proof.
  destruct v as [e r l s po d lo]. unfold erase, pv_of. cbn. f_equal; try (match goal with |- num_of (of_opt ?o) = _ => destruct o; reflexivity end).
  - rewrite map_map. cbn. apply map_id.
  - destruct lo as [l0|]; auto. cbn. rewrite map_map. cbn. now rewrite map_id.
Qed.
Print Assumptions C118_string_numbers.

(** ---- str and repr ---- *)
Definition no_bool (o : obj) : Prop := forall b, o <> OBool b.
Lemma str_num_int o z : no_bool o -> an_int o z -> str_num o = str_int z.
Proof. intros N H. destruct H; [reflexivity|destruct (N true eq_refl)|destruct (N false eq_refl)]. Qed.
(** Without bools among the arguments, str() is what C29 and C67 say. *)
Theorem C118_str epoch release release_level serial post dev local p :
  Version_py ONone epoch release release_level serial post dev local = Ok p ->
  no_bool epoch -> no_bool serial -> no_bool post -> no_bool dev -> Forall no_bool (p_release p) -> str_py p = show (erase p).
Proof.
  intros H N1 N2 N3 N4 N5. destruct (C118_numbers _ _ _ _ _ _ _ _ H) as (e & r & l & s & po & d & lo & He & Hr & Fr & Hl & Hs & Hp & Hd & Hlo & _).
  destruct (C118_keywords epoch release release_level serial post dev local) as [A B].
  assert (P : exists rel lv, p = mkPV (if is_None epoch then OInt 0 else epoch) rel lv (if is_None serial then OInt 0 else serial) post dev local).
  { clear - H. revert H. unfold Version_py. cbn [is_None]. repeat match goal with |- (match ?x with _ => _ end) = _ -> _ => destruct x; try discriminate end; intros H; injection H as <-; eauto. }
  destruct P as (rel & lv & ->). unfold str_py, show, erase. cbn [p_epoch p_release p_level p_serial p_post p_dev p_local v_epoch v_release v_level v_serial v_post v_dev v_local] in *.
  assert (TN : forall o, true_num o = truthy (num_of o)). { intros o. unfold true_num, truthy, num_of. destruct (int_value o); reflexivity. }
  assert (SN : forall o, no_bool o -> true_num o = true -> str_num o = opt_str (num_of o)).
  { intros o N T. unfold true_num in T. destruct o; try discriminate; [reflexivity|destruct (N b eq_refl)]. }
  assert (Nd : forall o, no_bool o -> no_bool (if is_None o then OInt 0 else o)). { intros o N b. destruct (is_None o); [discriminate|apply N]. }
  rewrite <- !TN. destruct (match lv with Final => true | _ => false end && true_num (if is_None serial then OInt 0 else serial)); auto. f_equal.
  assert (R : map str_num rel = map str_int (map (fun o => match int_value o with Some z => z | None => 0%Z end) rel)).
  { clear - Fr N5. induction Fr as [|x z l' r' X F IH]; auto. inversion N5; subst. cbn. rewrite IH by auto. f_equal. rewrite (str_num_int x z) by auto. apply int_iff in X. now rewrite X. }
  rewrite R. f_equal; [destruct (true_num (if is_None epoch then OInt 0 else epoch)) eqn:T; [f_equal; apply SN; auto|reflexivity]|].
  f_equal. f_equal. f_equal; [destruct (true_num (if is_None serial then OInt 0 else serial)) eqn:T; [apply SN; auto|reflexivity]|].
  assert (Q : forall o z pre, value o z -> no_bool o -> (if is_None o then [] else pre ++ str_num o) = match num_of o with Some n => pre ++ str_int n | None => [] end).
  { intros o [z|] pre V N; cbn in V; [|subst; reflexivity]. rewrite (str_num_int o z) by auto. unfold num_of. pose proof (proj1 (int_iff o z) V) as ->. destruct V; reflexivity. }
  f_equal; [eapply Q; eauto|]. f_equal; [eapply Q; eauto|]. destruct lo as [ss|]; subst local; cbn; [|reflexivity]. destruct ss; reflexivity.
Qed.
Print Assumptions C118_str.
Theorem C118_str_parsed v : str_py (pv_of v) = show v.
Proof.
  destruct v as [e r l s po d lo]. unfold str_py, show, pv_of. cbn.
  assert (TN : forall o, true_num (of_opt o) = truthy o) by (intros [z|]; reflexivity). rewrite !TN.
  destruct (match l with Final => true | _ => false end && truthy s); auto. f_equal.
  assert (SN : forall o, str_num (of_opt o) = opt_str o) by (intros [z|]; reflexivity). rewrite !SN.
  rewrite map_map. cbn. f_equal. f_equal. f_equal. f_equal. f_equal; [destruct po; reflexivity|]. f_equal; [destruct d; reflexivity|].
  destruct lo as [[|x ss]|]; try reflexivity. cbn. rewrite map_map. cbn. now rewrite map_id.
Qed.
Print Assumptions C118_str_parsed.
(** With them it need not be a version string. *)
Theorem C118_bool_refuted : exists p, Version_py ONone ONone (OTuple [OInt 1; OBool true]) ONone ONone ONone ONone ONone = Ok p /\
  str_py p = Ok (u "1.True") /\ parse (u "1.True") = Err ValueError.
Proof. eexists. split; [reflexivity|]. split; [reflexivity|]. vm_compute. reflexivity. Qed.
Print Assumptions C118_bool_refuted.
(** The documentation offers 'a' and 'b' as release_level: only the long names are accepted. *)
Theorem C118_level_names_refuted rel serial : Version_py ONone ONone rel (OStr (u "a")) serial ONone ONone ONone = Err ValueError /\ Version_py ONone ONone rel (OStr (u "b")) serial ONone ONone ONone = Err ValueError.
Proof.
  split; apply C118_keywords; intros (_ & _ & (l & L) & _); apply level_iff in L; discriminate L.
Qed.
Print Assumptions C118_level_names_refuted.

(** repr() of a version made from a string is Version('...'), and what is between the quotes is a text without quotes, backslashes and line breaks (so Python
    reads it as it stands) which makes an equal version. *)
Definition as_it_stands (c : chr) : Prop := c <> 39%N /\ c <> 92%N /\ c <> 10%N /\ c <> 13%N.
Lemma alnum_stands c : is_alnum c = true -> as_it_stands c.
Proof. unfold is_alnum, is_digit, between, as_it_stands. rewrite !orb_true_iff, !andb_true_iff, !N.leb_le, !N.eqb_eq. lia. Qed.
Lemma digits_stand z : (0 <= z)%Z -> Forall as_it_stands (str_int z).
Proof.
  intros H. destruct (str_int_spec z H) as [[_ D] _]. unfold all_of in D. rewrite forallb_forall in D. apply Forall_forall. intros c I. apply alnum_stands. unfold is_alnum. now rewrite (D c I).
Qed.
Lemma join_stands (l : list str) : Forall (Forall as_it_stands) l -> Forall as_it_stands (join (u ".") l).
Proof.
  induction l as [|x [|y l] IH]; intros H; inversion H; subst; [constructor|auto|]. change (join (u ".") (x :: y :: l)) with (x ++ u "." ++ join (u ".") (y :: l)).
  apply Forall_app. split; auto. apply Forall_app. split; [|auto]. repeat constructor; discriminate.
Qed.
Ltac stands := repeat (apply Forall_cons; [repeat split; discriminate|]); apply Forall_nil.
Lemma show_stands v t : wf v -> show v = Ok t -> Forall as_it_stands t.
Proof.
  intros W S. rewrite (show_eq v W) in S. injection S as <-. destruct W as [W1 W2 W3 W4 W5 W6 W7 W8 W9].
  repeat (apply Forall_app; split).
  - unfold epoch_str. destruct (v_epoch v) as [z|]; [|constructor]. destruct (truthy (Some z)); [|constructor]. apply Forall_app. split; [now apply digits_stand|stands].
  - apply join_stands. apply Forall_forall. intros x I. apply in_map_iff in I. destruct I as (z & <- & I). unfold nonnegs in W3. rewrite Forall_forall in W3. apply digits_stand; auto.
  - destruct (v_level v); stands.
  - unfold serial_str. destruct (v_serial v) as [z|]; [|constructor]. destruct (truthy (Some z)); [|constructor]. now apply digits_stand.
  - unfold post_str. destruct (v_post v) as [z|]; [|constructor]. apply Forall_app. split; [stands|now apply digits_stand].
  - unfold dev_str. destruct (v_dev v) as [z|]; [|constructor]. apply Forall_app. split; [stands|now apply digits_stand].
  - unfold local_str. destruct (v_local v) as [[|x0 l]|]; [constructor| |constructor]. destruct W9 as [_ W9]. apply Forall_app. split; [stands|]. apply join_stands.
    eapply Forall_impl; [|exact W9]. intros x [_ A]. unfold all_of in A. rewrite forallb_forall in A. apply Forall_forall. intros c I. apply alnum_stands; auto.
Qed.
Theorem C118_repr s v : parse s = Ok v ->
  exists t w, repr_py (pv_of v) = Ok (u "Version('" ++ t ++ u "')") /\ Forall as_it_stands t /\ parse t = Ok w /\ v_eq w v = true.
Proof.
  intros P. destruct (C29_str_round_trip s v P) as (t & w & S & P2 & E). exists t, w.
  unfold repr_py. rewrite C118_str_parsed, S. cbn [rmap]. split; [unfold quote; f_equal; unfold u; cbn; now rewrite <- ?app_assoc|]. split; [|auto].
  pose proof (parse_spec s) as Q. rewrite P in Q. destruct Q as (p & G & I). eapply show_stands; [|exact S]. exact (interp_wf _ _ _ G I).
Qed.
Print Assumptions C118_repr.

(** ---- operators ---- *)
(** Between versions, == and < are those of C27, and != and > follow from them; <= and >= raise TypeError, always.  A version is equal to nothing else, and is not
    comparable with anything else. *)
Theorem C118_operators v w o same :
  compare_py Eq_ same (IsVersion v) (IsVersion w) = Ok (v_eq (erase v) (erase w)) /\
  compare_py Ne_ same (IsVersion v) (IsVersion w) = Ok (negb (v_eq (erase v) (erase w))) /\
  compare_py Lt_ same (IsVersion v) (IsVersion w) = Ok (v_lt (erase v) (erase w)) /\
  compare_py Gt_ same (IsVersion v) (IsVersion w) = Ok (v_lt (erase w) (erase v)) /\
  compare_py Le_ same (IsVersion v) (IsVersion w) = Err TypeError /\
  compare_py Ge_ same (IsVersion v) (IsVersion w) = Err TypeError /\
  compare_py Eq_ same (IsVersion v) (IsOther o) = Ok false /\ compare_py Eq_ same (IsOther o) (IsVersion v) = Ok false /\
  compare_py Ne_ same (IsVersion v) (IsOther o) = Ok true /\ compare_py Ne_ same (IsOther o) (IsVersion v) = Ok true /\
  (forall op, op <> Eq_ -> op <> Ne_ -> compare_py op same (IsVersion v) (IsOther o) = Err TypeError /\ compare_py op same (IsOther o) (IsVersion v) = Err TypeError).
Proof. repeat (split; [reflexivity|]). intros [] H1 H2; try congruence; split; reflexivity. Qed.
Print Assumptions C118_operators.
(** the hypotheses hold of everyday arguments *)
Example C118_witness : exists p, Version_py ONone (OInt 1) (OTuple [OInt 2; OInt 0; OInt 3]) (OStr (u "rc")) (OInt 4) ONone (OBool false) (OTuple [OStr (u "ab"); OStr (u "07")]) = Ok p /\
  str_py p = Ok (u "1!2.0.3rc4.devFalse+ab.07") /\ erase p = mkV (Some 1%Z) [2; 0; 3]%Z RC (Some 4%Z) None (Some 0%Z) (Some [u "ab"; u "07"]).
Proof. eexists. split; [reflexivity|]. split; reflexivity. Qed.
Example C118_witness_repr : rmap (fun v => repr_py (pv_of v)) (parse (u "v1.2.0-rc.3+x")) = Ok (Ok (u "Version('1.2rc3+x')")).
Proof. vm_compute. reflexivity. Qed.
Example C118_witness_info : match Version_py (OInfo 3 12 4 InfoCandidate 2) ONone ONone ONone ONone ONone ONone ONone with Ok p => str_py p | Err e => Err e end = Ok (u "3.12.4rc2").
Proof. vm_compute. reflexivity. Qed.
Example C118_errors : Version_py (OStr (u "1")) (OInt 0) ONone ONone ONone ONone ONone ONone = Err ValueError /\ Version_py (OInt 1) ONone ONone ONone ONone ONone ONone ONone = Err ValueError /\
  Version_py ONone ONone (OTuple []) ONone ONone ONone ONone ONone = Err ValueError /\ Version_py (OStr (u "1.0RC1")) ONone ONone ONone ONone ONone ONone ONone = Err AssertionError.
Proof. repeat split; vm_compute; reflexivity. Qed.
