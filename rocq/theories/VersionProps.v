(** Version: the properties C27-C30 and C55. *)
From Verif Require Import VersionModel VersionSpec VersionProof VersionParse VersionProof2 VersionProof3 PyStrProof RegexProof.

(** C27: == is an equivalence and < a strict order, total up to ==.  For all objects,
    however constructed. *)
Theorem C27_version_total_order :
  (forall v, v_eq v v = true) /\
  (forall v w, v_eq v w = true -> v_eq w v = true) /\
  (forall v w x, v_eq v w = true -> v_eq w x = true -> v_eq v x = true) /\
  (forall v, v_lt v v = false) /\
  (forall v w x, v_lt v w = true -> v_lt w x = true -> v_lt v x = true) /\
  (forall v w, (v_lt v w = true /\ v_eq v w = false /\ v_lt w v = false) \/
               (v_lt v w = false /\ v_eq v w = true /\ v_lt w v = false) \/
               (v_lt v w = false /\ v_eq v w = false /\ v_lt w v = true)) /\
  (forall v v' w w', v_eq v v' = true -> v_eq w w' = true -> v_lt v w = v_lt v' w').
Proof.
  pose proof ok_key as K.
  split; [intros; now apply v_eq_key|].
  split; [intros v w; rewrite !v_eq_key; congruence|].
  split; [intros v w x; rewrite !v_eq_key; congruence|].
  split. { intros v. unfold v_lt. now rewrite (proj2 (ok_eq _ K _ _) eq_refl). }
  split. { intros v w x. rewrite !v_lt_cmp. apply (ok_trans _ K). }
  split.
  - intros v w. unfold v_lt, v_eq. rewrite (ok_opp _ K (key v) (key w)). destruct (cmp_key (key v) (key w)); cbn; tauto.
  - intros v v' w w'. rewrite !v_eq_key. unfold v_lt. intros -> ->. reflexivity.
Qed.
Print Assumptions C27_version_total_order.
Example C27_witness : exists v w x, parse (u "1.0rc1") = Ok v /\ parse (u "1!0.3") = Ok x /\ parse (u " v1.0.post1.dev2+ab.7") = Ok w /\
  v_lt v w = true /\ v_lt w x = true /\ v_eq v w = false.
Proof. vm_compute. eauto 10. Qed.

(** C28 is false: hash() is computed from the stored fields, of which different values can
    compare equal.  Python's hash(None) differs from hash(0). *)
Theorem C28_equal_hash_refuted : forall H, h_none H <> h_int H 0 ->
  exists v w, parse (u "1.0") = Ok v /\ parse (u "0!1.0") = Ok w /\ v_eq v w = true /\ v_hash H v <> v_hash H w.
Proof.
  intros H N. eexists. eexists. split; [vm_compute; reflexivity|]. split; [vm_compute; reflexivity|]. split; [reflexivity|].
  unfold v_hash, h_opt. cbn [v_epoch v_release v_level v_serial v_post v_dev v_local]. intros E. apply N.
  assert (C : forall a b c, Z.lxor a c = Z.lxor b c -> a = b).
  { intros a b c Q. apply (f_equal (fun z => Z.lxor z c)) in Q. now rewrite !Z.lxor_assoc, Z.lxor_nilpotent, !Z.lxor_0_r in Q. }
  repeat apply C in E. exact E.
Qed.
Print Assumptions C28_equal_hash_refuted.
(** the same with the pre-release's serial number, and with a numeric local segment *)
Theorem C28_equal_hash_refuted_serial : forall H, h_none H <> h_int H 0 ->
  exists v w, parse (u "1.0a") = Ok v /\ parse (u "1.0a0") = Ok w /\ v_eq v w = true /\ v_hash H v <> v_hash H w.
Proof.
  intros H N. eexists. eexists. split; [vm_compute; reflexivity|]. split; [vm_compute; reflexivity|]. split; [reflexivity|].
  unfold v_hash, h_opt. cbn [v_epoch v_release v_level v_serial v_post v_dev v_local]. intros E. apply N.
  assert (C : forall a b c, Z.lxor a c = Z.lxor b c -> a = b).
  { intros a b c Q. apply (f_equal (fun z => Z.lxor z c)) in Q. now rewrite !Z.lxor_assoc, Z.lxor_nilpotent, !Z.lxor_0_r in Q. }
  do 3 apply C in E. rewrite (Z.lxor_comm _ (h_none H)), (Z.lxor_comm _ (h_int H 0)) in E. apply C in E. exact E.
Qed.
Print Assumptions C28_equal_hash_refuted_serial.
Theorem C28_equal_hash_refuted_local : forall H, h_local H [u "1"] <> h_local H [u "01"] ->
  exists v w, parse (u "1.0+1") = Ok v /\ parse (u "1.0+01") = Ok w /\ v_eq v w = true /\ v_hash H v <> v_hash H w.
Proof.
  intros H N. eexists. eexists. split; [vm_compute; reflexivity|]. split; [vm_compute; reflexivity|]. split; [reflexivity|].
  unfold v_hash, h_opt. cbn [v_epoch v_release v_level v_serial v_post v_dev v_local]. intros E. apply N.
  assert (C : forall a b c, Z.lxor c a = Z.lxor c b -> a = b).
  { intros a b c Q. apply (f_equal (fun z => Z.lxor c z)) in Q. now rewrite <- !Z.lxor_assoc, Z.lxor_nilpotent, !Z.lxor_0_l in Q. }
  apply C in E. exact E.
Qed.
Print Assumptions C28_equal_hash_refuted_local.
(** Proved: equal versions hash equally when both or neither have an epoch and a
    pre-release number, and their local versions are spelled the same. *)
Theorem C28_equal_hash_partial : forall H v w, v_eq v w = true ->
  (v_epoch v = None <-> v_epoch w = None) -> (v_serial v = None <-> v_serial w = None) -> v_local v = v_local w ->
  (match v_post v with Some z => (0 <= z)%Z | None => True end) -> (match v_post w with Some z => (0 <= z)%Z | None => True end) ->
  v_hash H v = v_hash H w.
Proof.
  intros H v w E Ee Es El Pv Pw. apply v_eq_key in E. unfold key in E. injection E as E1 E2 E3 E4 E5 E6 E7.
  assert (A : v_epoch v = v_epoch w).
  { destruct (v_epoch v), (v_epoch w); auto; try congruence; [destruct (proj2 Ee eq_refl)|destruct (proj1 Ee eq_refl)]; auto; discriminate. }
  assert (B : v_serial v = v_serial w).
  { destruct (v_serial v), (v_serial w); auto; try congruence; [destruct (proj2 Es eq_refl)|destruct (proj1 Es eq_refl)]; auto; discriminate. }
  assert (C : v_level v = v_level w) by (destruct (v_level v), (v_level w); auto; discriminate).
  assert (D : v_post v = v_post w) by (destruct (v_post v), (v_post w); auto; [congruence|lia|lia]).
  assert (F : v_dev v = v_dev w) by (destruct (v_dev v), (v_dev w); auto; congruence).
  unfold v_hash. now rewrite A, B, C, D, E2, El, F.
Qed.
Print Assumptions C28_equal_hash_partial.
Example C28_witness : exists v w, parse (u "1!2.0.0rc.3.post4+ab") = Ok v /\ parse (u "01!2c3-4+ab") = Ok w /\ v_eq v w = true /\
  (v_epoch v = None <-> v_epoch w = None) /\ (v_serial v = None <-> v_serial w = None) /\ v_local v = v_local w.
Proof. eexists. eexists. split; [vm_compute; reflexivity|]. split; [vm_compute; reflexivity|]. repeat split; cbn; discriminate. Qed.

(** C29: str() of a version parsed from a string never fails, and parses back to a
    version equal to it. *)
Theorem C29_str_round_trip : forall s v, parse s = Ok v ->
  exists t w, show v = Ok t /\ parse t = Ok w /\ v_eq w v = true.
Proof.
  intros s v P. pose proof (parse_spec s) as Q. rewrite P in Q. destruct Q as (p & G & I).
  pose proof (interp_wf _ _ _ G I) as W. eexists. exists (norm v). split; [apply show_eq; exact W|].
  split; [apply roundtrip; [exact W|apply show_eq; exact W]|]. apply v_eq_key. apply key_norm.
Qed.
Print Assumptions C29_str_round_trip.
Example C29_witness : exists v t, parse (u " v01!2.0.0-ALPHA.3.r4-dev+ab_07") = Err AssertionError /\
  parse (u " v01!2.0.0-alpha.3.r4-dev05+Ab_07") = Ok v /\ show v = Ok t /\ t = u "1!2a3.post4.dev5+Ab.07".
Proof. eexists. eexists. split; [vm_compute; reflexivity|]. split; [vm_compute; reflexivity|]. split; reflexivity. Qed.
(** For versions made from keyword arguments str() can fail. *)
Theorem C29_str_of_fields_fails : exists v, of_fields None (Some [1%Z]) None (Some 5%Z) None None None = Ok v /\ show v = Err AssertionError.
Proof. eexists. split; reflexivity. Qed.
Print Assumptions C29_str_of_fields_fails.

(** C55: which strings Version() accepts: exactly those of PEP 440's grammar, except that
    a pre-release label that is not all lower case raises AssertionError. *)
Definition spelled (p : parts) : Prop :=
  match p_pre p with
  | None => True
  | Some (l, _) => In l [u "a"; u "b"; u "c"; u "rc"; u "alpha"; u "beta"; u "pre"; u "preview"]
  end.
Lemma level_spelled l : level_of l <> None <-> In l [u "a"; u "b"; u "c"; u "rc"; u "alpha"; u "beta"; u "pre"; u "preview"].
Proof.
  split.
  - unfold level_of. intros H.
    repeat match type of H with context [if ?b then _ else _] => destruct b eqn:? end; try congruence;
    repeat match goal with H : (_ || _)%bool = true |- _ => apply orb_true_iff in H; destruct H end;
    match goal with H : str_eqb _ _ = true |- _ => apply str_eqb_eq in H; subst l end; cbn; tauto.
  - intros H. cbn in H. decompose [or] H; subst; try discriminate. contradiction.
Qed.
Theorem C55_version_accepts : forall s,
  (parse s = Err ValueError <-> forall p, ~ pep440 s p) /\
  (forall v, parse s = Ok v -> exists p, pep440 s p /\ spelled p) /\
  (forall e, parse s = Err e -> e = ValueError \/ (e = AssertionError /\ exists p, pep440 s p /\ ~ spelled p)).
Proof.
  intros s. pose proof (parse_spec s) as Q. destruct (parse s) as [v|e].
  - destruct Q as (p & G & I). split; [|split].
    + split; [discriminate|]. intros H. destruct (H p G).
    + intros _ _. exists p. split; auto. unfold spelled. unfold interp in I. destruct (p_pre p) as [[l n]|]; auto.
      apply level_spelled. destruct (level_of l); congruence.
    + discriminate.
  - split; [|split].
    + destruct Q as [[-> Q]|[-> (p & G & _)]]; split; auto; [discriminate|]. intros H. destruct (H p G).
    + discriminate.
    + intros e' E. injection E as <-. destruct Q as [[-> Q]|[-> (p & G & I)]]; auto. right. split; auto. exists p. split; auto.
      unfold interp in I. unfold spelled. destruct (p_pre p) as [[l n]|]; [|discriminate]. rewrite <- level_spelled.
      destruct (level_of l); [discriminate|]. auto.
Qed.
Print Assumptions C55_version_accepts.
Example C55_witness : (exists v, parse (u "1.0rc1") = Ok v) /\ parse (u "1.0RC1") = Err AssertionError /\ parse (u "1..0") = Err ValueError.
Proof. vm_compute. eauto. Qed.

(** C30.  How a string is read: the parts the groups of the match give. *)
Definition parts_of (g : groups) : parts :=
  mkP (group g 0) (match group g 1 with Some r => r | None => [] end)
      (match group g 2 with Some l => Some (l, group g 3) | None => None end)
      (match group g 4, group g 5 with Some d, _ => Some (Some d) | None, Some _ => Some (group g 6) | None, None => None end)
      (match group g 7 with Some _ => Some (group g 8) | None => None end) (group g 9).
Lemma captured_parts p g : captured p g -> parts_of g = p.
Proof.
  destruct p as [e r pr po de lo]. unfold captured, parts_of. cbn [p_epoch p_release p_pre p_post p_dev p_local].
  intros (G0 & G1 & G2 & G3 & G46 & G78 & G9). rewrite G0, G1, G2, G3, G9. f_equal.
  - destruct pr as [[l n]|]; auto.
  - destruct po as [n|].
    + destruct G46 as [(d & -> & -> & _)|(l & -> & -> & ->)]; auto.
    + destruct G46 as (-> & -> & _). auto.
  - destruct de as [n|]; [destruct G78 as (l & -> & ->)|destruct G78 as (-> & _)]; auto.
Qed.
Definition read (s : str) : parts := match re_match version_re s with Some (g, _) => parts_of g | None => parts_of [] end.
Lemma read_spec s v : parse s = Ok v -> pep440 s (read s) /\ interp (read s) = Ok v.
Proof.
  intros P. unfold read. destruct (re_match version_re s) as [[g rest]|] eqn:M.
  - destruct (match_pep440 _ _ _ M) as (p & G & C). rewrite (captured_parts _ _ C). split; auto.
    now rewrite <- (parse_captured _ _ _ _ M C).
  - exfalso. unfold parse in P. rewrite M in P. discriminate.
Qed.
(** Proved: there is a way to read every accepted string as PEP 440 parts such that < is
    PEP 440's order, provided .post and .dev carry numbers, local versions have no upper
    case letter, and no dev-release of a release is compared with a pre-release. *)
Theorem C30_pep440_order_partial : exists read : str -> parts,
  (forall s v, parse s = Ok v -> pep440 s (read s)) /\
  forall s t v w, parse s = Ok v -> parse t = Ok w ->
    explicit (read s) -> explicit (read t) -> no_upper (read s) -> no_upper (read t) ->
    (pure_dev (read s) -> p_pre (read t) = None) -> (pure_dev (read t) -> p_pre (read s) = None) ->
    (v_lt v w = true <-> pep_lt (read s) (read t)).
Proof.
  exists read. split; [intros; eapply read_spec; eauto|]. intros s t v w P Q. apply pep_order; eapply read_spec; eauto.
Qed.
Print Assumptions C30_pep440_order_partial.
Example C30_witness : exists v w, parse (u "1!2.0.0rc.3.post4+ab.7") = Ok v /\ parse (u "1!2.post5.dev6+ab.11") = Ok w /\ v_lt v w = true /\
  explicit (read (u "1!2.0.0rc.3.post4+ab.7")) /\ explicit (read (u "1!2.post5.dev6+ab.11")) /\
  no_upper (read (u "1!2.0.0rc.3.post4+ab.7")) /\ no_upper (read (u "1!2.post5.dev6+ab.11")) /\
  ~ pure_dev (read (u "1!2.0.0rc.3.post4+ab.7")) /\ ~ pure_dev (read (u "1!2.post5.dev6+ab.11")).
Proof.
  eexists. eexists. split; [vm_compute; reflexivity|]. split; [vm_compute; reflexivity|]. split; [vm_compute; reflexivity|].
  split; [vm_compute; split; discriminate|]. split; [vm_compute; split; discriminate|].
  split; [vm_compute; reflexivity|]. split; [vm_compute; reflexivity|]. split; vm_compute; intros (A & B & C); discriminate.
Qed.
(** Without those provisos it is false. *)
Ltac wit := do 9 eexists; repeat match goal with |- _ /\ _ => split end.
Definition plain (r : str) : parts := mkP None r None None None None.
Lemma pep_a1 : pep440 (u "1.0a1") (mkP None (u "1.0") (Some (u "a", Some (u "1"))) None None None).
Proof.
  exists [], [], [], (u "1.0"), (u "a1"), [], [], [], []. repeat split; auto; try (now repeat constructor).
  exists [], [], (u "1"). repeat split; auto; try (left; reflexivity); try discriminate. exists (u "a"). split; [left; reflexivity|repeat constructor].
Qed.
Lemma pep_dev1 : pep440 (u "1.0.dev1") (mkP None (u "1.0") None None (Some (Some (u "1"))) None).
Proof.
  exists [], [], [], (u "1.0"), [], [], (u ".dev1"), [], []. repeat split; auto; try (now repeat constructor).
  exists (u "."), (u "dev"), [], (u "1"). repeat split; auto; try (left; reflexivity); try discriminate.
  - right. exists 46%N. auto. - exists (u "dev"). split; [left; reflexivity|repeat constructor].
Qed.
Lemma pep_dev0 : pep440 (u "1.0.dev") (mkP None (u "1.0") None None (Some None) None).
Proof.
  exists [], [], [], (u "1.0"), [], [], (u ".dev"), [], []. repeat split; auto; try (now repeat constructor).
  exists (u "."), (u "dev"), [], []. repeat split; auto; try (left; reflexivity).
  - right. exists 46%N. auto. - exists (u "dev"). split; [left; reflexivity|repeat constructor].
Qed.
Lemma pep_10 : pep440 (u "1.0") (mkP None (u "1.0") None None None None).
Proof. exists [], [], [], (u "1.0"), [], [], [], [], []. repeat split; auto; try (now repeat constructor). Qed.
Lemma pep_upper : pep440 (u "1.0+B") (mkP None (u "1.0") None None None (Some (u "B"))).
Proof. exists [], [], [], (u "1.0"), [], [], [], (u "+B"), []. repeat split; auto; repeat constructor; discriminate. Qed.
Lemma pep_lower : pep440 (u "1.0+a") (mkP None (u "1.0") None None None (Some (u "a"))).
Proof. exists [], [], [], (u "1.0"), [], [], [], (u "+a"), []. repeat split; auto; repeat constructor; discriminate. Qed.
Definition disagree (s t : str) : Prop := exists p q v w,
  pep440 s p /\ pep440 t q /\ pep_lt p q /\ parse s = Ok v /\ parse t = Ok w /\ v_lt v w = false.
(** PEP 440: 1.0.dev1 precedes 1.0a1; big: 1.0a1 precedes 1.0.dev1 *)
Theorem C30_dev_before_alpha_refuted : disagree (u "1.0.dev1") (u "1.0a1").
Proof.
  do 4 eexists. split; [exact pep_dev1|]. split; [exact pep_a1|].
  split; [|split; [vm_compute; reflexivity|split; vm_compute; reflexivity]].
  right. split; [reflexivity|]. right. split; [reflexivity|]. left. exact I.
Qed.
Print Assumptions C30_dev_before_alpha_refuted.
(** PEP 440: 1.0.dev is 1.0.dev0, which precedes 1.0; big: 1.0.dev == 1.0 *)
Theorem C30_implicit_dev_number_refuted : disagree (u "1.0.dev") (u "1.0").
Proof.
  do 4 eexists. split; [exact pep_dev0|]. split; [exact pep_10|].
  split; [|split; [vm_compute; reflexivity|split; vm_compute; reflexivity]].
  right. split; [reflexivity|]. right. split; [reflexivity|]. left. exact I.
Qed.
Print Assumptions C30_implicit_dev_number_refuted.
(** PEP 440: 1.0+a precedes 1.0+B (case is ignored); big: 1.0+B precedes 1.0+a *)
Theorem C30_local_case_refuted : disagree (u "1.0+a") (u "1.0+B").
Proof.
  do 4 eexists. split; [exact pep_lower|]. split; [exact pep_upper|].
  split; [|split; [vm_compute; reflexivity|split; vm_compute; reflexivity]].
  right. split; [reflexivity|]. right. split; [reflexivity|]. right. split; [reflexivity|]. right. split; [reflexivity|].
  right. split; [reflexivity|]. apply lex_hd. right. split; [reflexivity|]. apply lex_hd. reflexivity.
Qed.
Print Assumptions C30_local_case_refuted.
