(** C28, exactly: for which equal versions the hashes agree. *)
From Verif Require Import VersionModel VersionSpec VersionProof VersionParse VersionProof2 VersionProof3 PyStrProof RegexProof VersionProps.

Lemma str_list_eq_dec (a b : list str) : {a = b} + {a <> b}.
Proof. repeat decide equality. Qed.
Lemma same_or_zero (a b : option Z) : match a with None => 0 | Some z => z end%Z = match b with None => 0 | Some z => z end%Z ->
  a = b \/ (a = None /\ b = Some 0%Z) \/ (a = Some 0%Z /\ b = None).
Proof. destruct a, b; intros H; subst; auto. Qed.

(** Of two equal versions made from strings, the hashes agree - whatever Python's hash of None,
    ints, strings and tuples is - exactly if the local versions are spelled the same and the two
    differ both, or neither, in the presence of "0!" and of the 0 of "a0". *)
Theorem C28_equal_hash_exact : forall s t v w, parse s = Ok v -> parse t = Ok w -> v_eq v w = true ->
  ((forall H, v_hash H v = v_hash H w) <->
   v_local v = v_local w /\ (v_epoch v = v_epoch w <-> v_serial v = v_serial w)).
Proof.
  intros s t v w Pv Pw E.
  assert (Wv : wf v). { pose proof (parse_spec s) as Q. rewrite Pv in Q. destruct Q as (p & G & I). eapply interp_wf; eauto. }
  assert (Ww : wf w). { pose proof (parse_spec t) as Q. rewrite Pw in Q. destruct Q as (p & G & I). eapply interp_wf; eauto. }
  apply v_eq_key in E. unfold key in E. injection E as E1 E2 E3 E4 E5 E6 E7.
  assert (C : v_level v = v_level w) by (destruct (v_level v), (v_level w); auto; discriminate).
  assert (D : v_post v = v_post w). { pose proof (wf_post _ Wv). pose proof (wf_post _ Ww). destruct (v_post v), (v_post w); auto; [congruence|lia|lia]. }
  assert (F : v_dev v = v_dev w) by (destruct (v_dev v), (v_dev w); auto; congruence).
  assert (L : v_local v = None <-> v_local w = None).
  { pose proof (wf_local _ Wv). pose proof (wf_local _ Ww). destruct (v_local v) as [lv|], (v_local w) as [lw|]; split; auto; try discriminate;
    intros _; exfalso; cbn in E7; [destruct lv; [tauto|discriminate]|destruct lw; [tauto|discriminate]]. }
  apply same_or_zero in E1, E4. unfold v_hash. rewrite E2, C, D, F. split.
  - intros X. split.
    + destruct (v_local v) as [lv|] eqn:Lv, (v_local w) as [lw|] eqn:Lw; auto; [|pose proof (proj2 L eq_refl); congruence|pose proof (proj1 L eq_refl); congruence].
      destruct (str_list_eq_dec lv lw) as [->|N]; auto. exfalso.
      specialize (X (mkHash 0 (fun _ => 0)%Z (fun _ => 0)%Z (fun _ => 0)%Z (fun l => if str_list_eq_dec l lv then 1 else 0)%Z)).
      cbn in X. destruct (str_list_eq_dec lv lv); [|congruence]. destruct (str_list_eq_dec lw lv); [congruence|].
      destruct (v_epoch v), (v_serial v), (v_epoch w), (v_serial w), (v_post w), (v_dev w); vm_compute in X; discriminate X.
    + specialize (X (mkHash 1 (fun _ => 0)%Z (fun _ => 0)%Z (fun _ => 0)%Z (fun l => 0)%Z)). cbn in X.
      destruct E1 as [E1|[[E1 E1']|[E1 E1']]], E4 as [E4|[[E4 E4']|[E4 E4']]]; rewrite ?E1, ?E4, ?E1', ?E4' in X |- *;
        try (split; congruence); exfalso;
        destruct (v_local v) eqn:?, (v_local w) eqn:?, (v_epoch w), (v_serial w), (v_post w), (v_dev w); vm_compute in X; try discriminate X;
        destruct L as [L1 L2]; try (specialize (L1 eq_refl); congruence); specialize (L2 eq_refl); congruence.
  - intros [El X] H. rewrite El.
    destruct E1 as [E1|[[E1 E1']|[E1 E1']]], E4 as [E4|[[E4 E4']|[E4 E4']]]; rewrite ?E1, ?E4, ?E1', ?E4' in X |- *; auto;
      try (exfalso; destruct X as [X1 X2]; first [discriminate (X1 eq_refl) | discriminate (X2 eq_refl)]).
    all: cbn [h_opt]; f_equal; f_equal; f_equal;
      rewrite !(Z.lxor_assoc _ _ (h_level H _)), !(Z.lxor_assoc _ (Z.lxor _ _)); set (m := Z.lxor (h_release H _) _);
      rewrite ?(Z.lxor_comm m), <- ?Z.lxor_assoc; f_equal; try apply Z.lxor_comm; rewrite ?Z.lxor_nilpotent; auto.
Qed.
Print Assumptions C28_equal_hash_exact.
(** both cases arise: "0!1a" and "1a0" (equal, and the two differences cancel), "1a" and "1a0" *)
Example C28_exact_nonvacuous : exists v w x, parse (u "0!1a") = Ok v /\ parse (u "1a0") = Ok w /\ parse (u "1a") = Ok x /\
  v_eq v w = true /\ (v_epoch v = v_epoch w <-> v_serial v = v_serial w) /\ v_epoch v <> v_epoch w /\
  v_eq x w = true /\ ~ (v_epoch x = v_epoch w <-> v_serial x = v_serial w).
Proof.
  eexists. eexists. eexists. split; [vm_compute; reflexivity|]. split; [vm_compute; reflexivity|]. split; [vm_compute; reflexivity|].
  split; [reflexivity|]. cbn. split; [split; discriminate|]. split; [discriminate|]. split; [reflexivity|]. intros [H _]. discriminate (H eq_refl).
Qed.
