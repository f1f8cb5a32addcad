(** C30, exactly: the order big puts on all version strings. *)
From Verif Require Import VersionModel VersionSpec VersionProof VersionParse VersionProof2 VersionProof3 PyStrProof RegexProof VersionProps.

(** ---- specification: PEP 440's order with three changes ---- *)
(** 1. a dev-release of the release itself does not sort before the pre-releases *)
Definition big_pre (p : parts) : ext (Z * Z) := match p_pre p with Some (l, n) => Val (pre_phase l, num n) | None => PosInf end.
(** 2. a .post or .dev marker without a number is ignored *)
Definition big_post (p : parts) : ext Z := match p_post p with Some (Some n) => Val (int_of n) | _ => NegInf end.
Definition big_dev (p : parts) : ext Z := match p_dev p with Some (Some n) => Val (int_of n) | _ => PosInf end.
(** 3. upper and lower case differ in a local version *)
Definition big_seg (s : str) : ext Z * str :=
  if match s with [] => false | _ => forallb is_digit s end then (Val (int_of s), []) else (NegInf, s).
Definition big_local (p : parts) : list (ext Z * str) :=
  match p_local p with None => [] | Some l => map big_seg (split1 is_sep l) end.
Definition epoch_number (p : parts) : Z := match p_epoch p with None => 0%Z | Some e => int_of e end.
Definition big_key (p : parts) := (epoch_number p, (pep_release p, (big_pre p, (big_post p, (big_dev p, big_local p))))).
Definition big_lt (p q : parts) : Prop :=
  pair_lt Z.lt (pair_lt (lex Z.lt) (pair_lt (ext_lt (pair_lt Z.lt Z.lt)) (pair_lt (ext_lt Z.lt) (pair_lt (ext_lt Z.lt)
    (lex (pair_lt (ext_lt Z.lt) (lex N.lt))))))) (big_key p) (big_key q).

(** ---- proof ---- *)
Lemma refl_big_seg a b :
  refl (cmp_local (local_seg a) (local_seg b)) (pair_lt (ext_lt Z.lt) (lex N.lt) (big_seg a) (big_seg b)) (big_seg a = big_seg b).
Proof.
  unfold local_seg, big_seg. change (match a with [] => false | _ :: _ => forallb is_digit a end) with (is_digits a).
  change (match b with [] => false | _ :: _ => forallb is_digit b end) with (is_digits b).
  destruct (is_digits a), (is_digits b); cbn [cmp_local]; unfold pair_lt; cbn [fst snd ext_lt].
  - eapply refl_iff; [apply refl_Z| |].
    + split; auto. intros [H|[_ H]]; auto. inversion H.
    + split; [intros ->; auto|]. congruence.
  - split; split; intros Q; try discriminate. destruct Q as [[]|[Q _]]; discriminate.
  - split; split; intros Q; try discriminate; auto.
  - eapply refl_iff; [apply (refl_list N.compare (fun z => z) N.lt); intros; apply refl_N| |]; rewrite !map_id.
    + split; auto. intros [[]|[_ H]]; auto.
    + split; [intros ->; auto|congruence].
Qed.
Lemma refl_big_local p q :
  refl (cmp_list cmp_local (match option_map (split1 is_sep) (p_local p) with None => [] | Some l => map local_seg l end)
                           (match option_map (split1 is_sep) (p_local q) with None => [] | Some l => map local_seg l end))
       (lex (pair_lt (ext_lt Z.lt) (lex N.lt)) (big_local p) (big_local q)) (big_local p = big_local q).
Proof.
  unfold big_local.
  assert (G : forall a b,
    refl (cmp_list cmp_local (map local_seg a) (map local_seg b)) (lex (pair_lt (ext_lt Z.lt) (lex N.lt)) (map big_seg a) (map big_seg b)) (map big_seg a = map big_seg b)).
  { intros a b. pose proof (refl_list (fun x y => cmp_local (local_seg x) (local_seg y)) big_seg (pair_lt (ext_lt Z.lt) (lex N.lt)) a b) as R.
    assert (E : cmp_list (fun x y => cmp_local (local_seg x) (local_seg y)) a b = cmp_list cmp_local (map local_seg a) (map local_seg b)).
    { clear. revert b. induction a as [|x a IH]; intros [|y b]; cbn; auto. now rewrite IH. }
    rewrite E in R. apply R. intros. apply refl_big_seg. }
  specialize (G (match p_local p with None => [] | Some l => split1 is_sep l end) (match p_local q with None => [] | Some l => split1 is_sep l end)).
  destruct (p_local p), (p_local q); exact G.
Qed.
Lemma interp_key p v : interp p = Ok v -> exists lv,
  (match p_pre p with None => lv = Final | Some (l, _) => level_of l = Some lv end) /\
  key v = mkK (epoch_number p) (clip (map int_of (split1 (fun c => (c =? 46)%N) (p_release p)))) (level_int lv)
    (match p_pre p with None => 0%Z | Some (_, n) => num n end)
    (match p_post p with Some (Some n) => int_of n | _ => (-1)%Z end)
    (match p_dev p with Some (Some n) => DevNum (int_of n) | _ => DevInf end)
    (match option_map (split1 is_sep) (p_local p) with None => [] | Some l => map local_seg l end).
Proof.
  unfold interp. intros H.
  destruct (match p_pre p with None => Some Final | Some (l, _) => level_of l end) as [lv|] eqn:L; [|discriminate].
  exists lv. injection H as <-. split.
  - destruct (p_pre p) as [[l n]|]; congruence.
  - unfold key, epoch_number, num. cbn. f_equal.
    + destruct (p_epoch p); reflexivity.
    + destruct (p_pre p) as [[l [n|]]|]; reflexivity.
    + destruct (p_post p) as [[n|]|]; reflexivity.
    + destruct (p_dev p) as [[n|]|]; reflexivity.
Qed.
Lemma refl_big p q v w : interp p = Ok v -> interp q = Ok w ->
  refl (cmp_key (key v) (key w)) (big_lt p q) (big_key p = big_key q).
Proof.
  intros Ip Iq. destruct (interp_key _ _ Ip) as (lv & L & ->), (interp_key _ _ Iq) as (lw & M & ->).
  unfold cmp_key. cbn [k_epoch k_release k_level k_serial k_post k_dev k_local].
  pose proof (refl_big_local p q) as RL.
  assert (RD : refl (cmp_dev (match p_dev p with Some (Some n) => DevNum (int_of n) | _ => DevInf end) (match p_dev q with Some (Some n) => DevNum (int_of n) | _ => DevInf end))
    (ext_lt Z.lt (big_dev p) (big_dev q)) (big_dev p = big_dev q)).
  { unfold big_dev. destruct (p_dev p) as [[d|]|], (p_dev q) as [[d'|]|]; cbn;
      try solve [split; split; auto; (discriminate || intros [])].
    eapply refl_iff; [apply refl_Z|reflexivity|]. split; [intros ->; auto|congruence]. }
  assert (RP : refl (match p_post p with Some (Some n) => int_of n | _ => (-1)%Z end ?= match p_post q with Some (Some n) => int_of n | _ => (-1)%Z end)%Z
    (ext_lt Z.lt (big_post p) (big_post q)) (big_post p = big_post q)).
  { unfold big_post. eapply refl_iff; [apply refl_Z| |];
    (destruct (p_post p) as [[d|]|]; [pose proof (int_of_nonneg d)| |]); (destruct (p_post q) as [[d'|]|]; [pose proof (int_of_nonneg d')| |]); cbn [ext_lt];
      split; intros X; try lia; try tauto; try congruence; try discriminate. }
  assert (RS : refl (cmp_then (level_int lv ?= level_int lw)%Z (match p_pre p with None => 0 | Some (_, n) => num n end ?= match p_pre q with None => 0 | Some (_, n) => num n end)%Z)
    (ext_lt (pair_lt Z.lt Z.lt) (big_pre p) (big_pre q)) (big_pre p = big_pre q)).
  { unfold big_pre. eapply refl_iff; [apply refl_then; apply refl_Z| |];
    (destruct (p_pre p) as [[l n]|]; [destruct (level_phase _ _ L) as [P1 P2]|subst lv]);
    (destruct (p_pre q) as [[l' n']|]; [destruct (level_phase _ _ M) as [Q1 Q2]|subst lw]); cbn [ext_lt level_int]; unfold pair_lt; cbn [fst snd];
      split; intros X; auto; try lia; try discriminate.
    - destruct X as [A B]. rewrite B. replace (pre_phase l) with (pre_phase l') by lia. reflexivity.
    - injection X as A B. split; [lia|exact B]. }
  pose proof (release_nonneg (p_release p)) as [NP1 NP2]. pose proof (release_nonneg (p_release q)) as [NQ1 NQ2].
  pose proof (refl_release _ _ NP2 NQ2 NP1 NQ1) as RR.
  pose proof (refl_Z (epoch_number p) (epoch_number q)) as RE.
  pose proof (refl_then _ _ _ _ _ _ RE (refl_then _ _ _ _ _ _ RR (refl_then _ _ _ _ _ _ RS (refl_then _ _ _ _ _ _ RP (refl_then _ _ _ _ _ _ RD RL))))) as R.
  match goal with |- refl ?c _ _ => match type of R with refl ?d _ _ => replace c with d end end.
  2:{ match goal with |- context [cmp_then (cmp_then ?a ?b) ?c] => destruct a, b; reflexivity end. }
  eapply refl_iff; [exact R| |].
  - unfold big_lt, big_key, pair_lt, pep_release. cbn [fst snd]. reflexivity.
  - unfold big_key, pep_release. split; [intros (-> & -> & -> & -> & -> & ->); reflexivity|]. intros X. injection X. auto 10.
Qed.

(** For all strings Version() accepts, < and == are those of PEP 440 with just the three changes
    above. *)
Theorem C30_order_exact : exists read : str -> parts,
  (forall s v, parse s = Ok v -> pep440 s (read s)) /\
  forall s t v w, parse s = Ok v -> parse t = Ok w ->
    (v_lt v w = true <-> big_lt (read s) (read t)) /\ (v_eq v w = true <-> big_key (read s) = big_key (read t)).
Proof.
  exists read. split; [intros; eapply read_spec; eauto|]. intros s t v w P Q.
  destruct (read_spec _ _ P) as [_ I], (read_spec _ _ Q) as [_ J]. destruct (refl_big _ _ _ _ I J) as [A B].
  rewrite v_lt_cmp. split; [exact A|]. rewrite <- B. unfold v_eq. destruct (cmp_key (key v) (key w)); split; congruence.
Qed.
Print Assumptions C30_order_exact.
(** the changes show: 1.0a1 < 1.0.dev1, 1.0.dev == 1.0.post == 1.0, 1.0+B < 1.0+a *)
Example C30_exact_nonvacuous :
  big_lt (read (u "1.0a1")) (read (u "1.0.dev1")) /\ big_key (read (u "1.0.dev")) = big_key (read (u "1.0.post")) /\
  big_key (read (u "1.0.dev")) = big_key (read (u "1.0")) /\ big_lt (read (u "1.0+B")) (read (u "1.0+a")) /\
  ~ big_lt (read (u "1.0.dev1")) (read (u "1.0a1")).
Proof.
  unfold big_lt. vm_compute. split; [|split; [reflexivity|split; [reflexivity|split]]].
  - right. split; [reflexivity|]. right. split; [reflexivity|]. left. exact I.
  - do 5 (right; split; [reflexivity|]). apply lex_hd. right. split; [reflexivity|]. apply lex_hd. reflexivity.
  - intros [X|[_ [X|[_ [X|[X _]]]]]]; try discriminate X; try exact X. inversion X; subst; try discriminate.
    match goal with H : lex _ [] [] |- _ => inversion H end.
Qed.
