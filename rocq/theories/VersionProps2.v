(** The properties C67 (Version from keyword arguments) and C68 (Version from sys.version_info,
    and the major, minor and micro attributes). *)
From Verif Require Import PyStr PyStrProof Regex RegexProof VersionModel VersionSpec VersionProof VersionParse VersionProof2 VersionProof3 VersionProof4 VersionProps.

(** letters and digits; but $ also matches before a final newline *)
Definition letters_and_digits (s : str) : Prop :=
  s <> [] /\ forall c, In c s -> (48 <= c <= 57 \/ 65 <= c <= 90 \/ 97 <= c <= 122)%N.
Definition segment (s : str) : Prop := exists t, letters_and_digits t /\ (s = t \/ s = t ++ [10%N]).
Definition not_negative (o : option Z) : Prop := forall z, o = Some z -> (0 <= z)%Z.

Lemma letters_alnum s : letters_and_digits s <-> alnum_text s.
Proof.
  unfold letters_and_digits, alnum_text, all_of. rewrite forallb_forall. split; intros [N H]; split; auto; intros c I; specialize (H c I);
    unfold is_ascii_alnum, is_digit, between in *; rewrite ?orb_true_iff, ?andb_true_iff, ?N.leb_le in *; lia.
Qed.
Lemma segment_valid s : segment s <-> valid_segment s = true.
Proof.
  rewrite valid_segment_iff. unfold segment. split; intros (t & A & E); exists t; (split; [now apply letters_alnum|]); exact E.
Qed.
Lemma nonneg_iff o : nonneg o = true <-> not_negative o.
Proof. unfold nonneg, not_negative. destruct o as [z|]; [|split; [discriminate|auto]]. rewrite Z.leb_le. split; [intros H y E; now injection E as <-|auto]. Qed.

(** C67: exactly which keyword arguments are accepted, and the version they make; everything
    else is a ValueError. *)
Definition acceptable (epoch : option Z) (release : option (list Z)) (serial post dev : option Z) (local : option (list str)) : Prop :=
  (exists r, release = Some r /\ r <> []) /\ not_negative epoch /\ not_negative serial /\ not_negative post /\ not_negative dev /\
  (forall l, local = Some l -> l <> [] /\ Forall segment l).
Theorem C67_fields : forall epoch release level serial post dev local,
  (acceptable epoch release serial post dev local ->
   exists v, of_fields epoch release level serial post dev local = Ok v /\
     v_epoch v = Some (match epoch with Some e => e | None => 0%Z end) /\ release = Some (v_release v) /\
     v_level v = (match level with Some l => l | None => Final end) /\
     v_serial v = Some (match serial with Some n => n | None => 0%Z end) /\
     v_post v = post /\ v_dev v = dev /\ v_local v = local) /\
  (~ acceptable epoch release serial post dev local -> of_fields epoch release level serial post dev local = Err ValueError).
Proof.
  intros epoch release level serial post dev local. unfold of_fields, acceptable.
  destruct release as [r|]; [|split; [intros ((r & E & _) & _); discriminate|auto]].
  destruct (nonneg epoch) eqn:E1; [|split; [intros (_ & H & _); apply nonneg_iff in H; congruence|auto]].
  destruct r as [|x r]; [split; [intros ((r & E & N) & _); injection E as <-; congruence|auto]|].
  destruct (nonneg serial) eqn:E2; [|split; [intros (_ & _ & H & _); apply nonneg_iff in H; congruence|auto]].
  destruct (nonneg post) eqn:E3; [|split; [intros (_ & _ & _ & H & _); apply nonneg_iff in H; congruence|auto]].
  destruct (nonneg dev) eqn:E4; [|split; [intros (_ & _ & _ & _ & H & _); apply nonneg_iff in H; congruence|auto]].
  cbn [negb is_none hd_error].
  apply nonneg_iff in E1, E2, E3, E4.
  assert (Loc : match local with None => false | Some l => is_none (hd_error l) || negb (forallb valid_segment l) end = false <-> (forall l, local = Some l -> l <> [] /\ Forall segment l)).
  { destruct local as [l|]; [|split; [discriminate|auto]]. rewrite orb_false_iff, negb_false_iff. split.
    - intros [A B] l' E. injection E as <-. split; [destruct l; [discriminate|discriminate]|]. apply Forall_forall. intros y I. rewrite forallb_forall in B. apply segment_valid; auto.
    - intros H. destruct (H l eq_refl) as [A B]. split; [destruct l; [congruence|reflexivity]|]. apply forallb_forall. intros y I. rewrite Forall_forall in B. apply segment_valid; auto. }
  destruct (match local with None => false | Some l => is_none (hd_error l) || negb (forallb valid_segment l) end) eqn:E5.
  - split; auto. intros (_ & _ & _ & _ & _ & H). apply Loc in H. discriminate.
  - split; [intros _|intros H; exfalso; apply H; split; [exists (x :: r); split; auto; discriminate|]; split; auto; split; auto; split; auto; split; auto; now apply Loc].
    eexists. split; [reflexivity|]. cbn. repeat (split; [reflexivity|]). reflexivity.
Qed.
Print Assumptions C67_fields.
(** C67: str() of such a version gives the version back, if the release numbers are not negative
    and do not end in 0 (or there is only one), a final version has no serial, and no local
    segment ends in a newline. *)
Theorem C67_round_trip_partial : forall epoch release level serial post dev local v,
  of_fields epoch release level serial post dev local = Ok v ->
  (forall r, release = Some r -> Forall (fun n => (0 <= n)%Z) r /\ (length r = 1%nat \/ last r 0%Z <> 0%Z)) ->
  (level = None \/ level = Some Final -> serial = None \/ serial = Some 0%Z) ->
  (forall l, local = Some l -> Forall letters_and_digits l) ->
  exists t w, show v = Ok t /\ parse t = Ok w /\ v_eq w v = true.
Proof.
  intros epoch release level serial post dev local v F HR HS HL.
  destruct (C67_fields epoch release level serial post dev local) as [A B].
  assert (Acc : acceptable epoch release serial post dev local).
  { assert (D : acceptable epoch release serial post dev local \/ ~ acceptable epoch release serial post dev local).
    { (* decided by of_fields itself *)
      left. revert F. clear. unfold of_fields, acceptable.
      destruct release as [r|]; [|discriminate]. destruct (nonneg epoch) eqn:E1; [|discriminate]. destruct r as [|x r]; [discriminate|].
      destruct (nonneg serial) eqn:E2; [|discriminate]. destruct (nonneg post) eqn:E3; [|discriminate]. destruct (nonneg dev) eqn:E4; [|discriminate].
      cbn [negb is_none hd_error]. apply nonneg_iff in E1, E2, E3, E4. intros F. split; [exists (x :: r); split; auto; discriminate|]. repeat (split; [assumption|]).
      intros l ->. destruct l as [|y l]; [discriminate|]. split; [discriminate|]. cbn [is_none hd_error orb] in F. destruct (forallb valid_segment (y :: l)) eqn:V; [|discriminate].
      apply Forall_forall. intros z I. rewrite forallb_forall in V. apply segment_valid; auto. }
    destruct D as [D|D]; auto. apply B in D. congruence. }
  destruct (A Acc) as (v' & F' & V1 & V2 & V3 & V4 & V5 & V6 & V7). assert (v' = v) by congruence. subst v'.
  destruct Acc as ((r & Er & Nr) & A1 & A2 & A3 & A4 & A5). rewrite V2 in Er. injection Er as Er.
  destruct (HR _ V2) as [Rn Rc].
  assert (W : wf (norm v)).
  { constructor; unfold norm; cbn [v_epoch v_release v_level v_serial v_post v_dev v_local].
    - rewrite V1. destruct epoch as [e|]; [specialize (A1 e eq_refl)|]; auto. destruct e; auto.
    - congruence.
    - exact Rn.
    - apply clipped_iff; auto. congruence.
    - rewrite V4. destruct serial as [n|]; [specialize (A2 n eq_refl)|]; auto. destruct n; auto.
    - intros L. rewrite V4. destruct HS as [HS|HS]; [|rewrite HS; reflexivity|rewrite HS; reflexivity]. rewrite V3 in L. destruct level as [l|]; [right; congruence|left; auto].
    - rewrite V5. destruct post as [n|]; auto.
    - rewrite V6. destruct dev as [n|]; auto.
    - rewrite V7. destruct local as [l|]; auto. destruct (A5 l eq_refl) as [N _]. split; auto. specialize (HL l eq_refl). rewrite Forall_forall in *. intros y I. apply ascii_seg_ok, letters_alnum. auto. }
  assert (S : exists t, show (norm v) = Ok t) by (eexists; apply show_eq; exact W). destruct S as [t S].
  exists t, (norm (norm v)). split; [rewrite <- show_norm; exact S|]. split; [now apply roundtrip|]. apply v_eq_key. now rewrite !key_norm.
Qed.
Print Assumptions C67_round_trip_partial.
(** Exactly then: str() succeeds and gives a version that is equal if and only if those conditions hold. *)
Theorem C67_round_trip_exact : forall epoch release level serial post dev local v,
  of_fields epoch release level serial post dev local = Ok v ->
  ((exists t w, show v = Ok t /\ parse t = Ok w /\ v_eq w v = true) <->
   (forall r, release = Some r -> Forall (fun n => (0 <= n)%Z) r /\ (length r = 1%nat \/ last r 0%Z <> 0%Z)) /\
   (level = None \/ level = Some Final -> serial = None \/ serial = Some 0%Z) /\
   (forall l, local = Some l -> Forall letters_and_digits l)).
Proof.
  intros epoch release level serial post dev local v F. split.
  2: { intros (H1 & H2 & H3). eapply C67_round_trip_partial; eauto. }
  intros (t & w & S & P & E).
  assert (Acc : acceptable epoch release serial post dev local).
  { revert F. clear. unfold of_fields, acceptable.
    destruct release as [r|]; [|discriminate]. destruct (nonneg epoch) eqn:E1; [|discriminate]. destruct r as [|x r]; [discriminate|].
    destruct (nonneg serial) eqn:E2; [|discriminate]. destruct (nonneg post) eqn:E3; [|discriminate]. destruct (nonneg dev) eqn:E4; [|discriminate].
    cbn [negb is_none hd_error]. apply nonneg_iff in E1, E2, E3, E4. intros F. split; [exists (x :: r); split; auto; discriminate|]. repeat (split; [assumption|]).
    intros l ->. destruct l as [|y l]; [discriminate|]. split; [discriminate|]. cbn [is_none hd_error orb] in F. destruct (forallb valid_segment (y :: l)) eqn:V; [|discriminate].
    apply Forall_forall. intros z I. rewrite forallb_forall in V. apply segment_valid; auto. }
  destruct (C67_fields epoch release level serial post dev local) as [A _].
  destruct (A Acc) as (v' & F' & V1 & V2 & V3 & V4 & V5 & V6 & V7). assert (v' = v) by congruence. subst v'.
  destruct Acc as ((r0 & Er & Nr) & A1 & A2 & A3 & A4 & A5).
  pose proof (parse_spec t) as Q. rewrite P in Q. destruct Q as (p & G & I). pose proof (interp_wf _ _ _ G I) as W.
  apply v_eq_key in E. split; [|split].
  - intros r Hr. assert (R : v_release w = r). { transitivity (v_release v); [exact (f_equal k_release E)|congruence]. }
    split; [rewrite <- R; apply W|]. apply clipped_iff; [congruence|]. rewrite <- R. apply W.
  - intros HL. unfold show in S. assert (L : v_level v = Final) by (rewrite V3; destruct HL as [-> | ->]; reflexivity). rewrite L in S. rewrite V4 in S. cbn in S.
    destruct serial as [n|]; auto. right. destruct (n =? 0)%Z eqn:Z0; [apply Z.eqb_eq in Z0; congruence|]. discriminate S.
  - intros l Hl. destruct (A5 l Hl) as [Nl Sl]. pose proof (f_equal k_local E) as K. cbn in K. rewrite V7, Hl in K. pose proof (wf_local _ W) as WL.
    destruct (v_local w) as [lw|]; [|destruct l; [congruence|discriminate K]]. destruct WL as [_ WL].
    revert lw K WL Sl. clear. induction l as [|y l IH]; intros lw K WL Sl; [constructor|]. destruct lw as [|x lw]; [discriminate K|]. cbn in K. injection K as K1 K2.
    inversion WL as [|? ? X WL']; subst. inversion Sl as [|? ? Y Sl']; subst. constructor; [|eapply IH; eauto].
    destruct Y as (t & T & [-> | ->]); auto. exfalso. unfold local_seg in K1.
    assert (D : is_digits (t ++ [10%N]) = false). { unfold is_digits. destruct (t ++ [10%N]) eqn:Z; [destruct t; discriminate|]. rewrite <- Z, forallb_app. cbn. apply andb_false_r. }
    rewrite D in K1. destruct (is_digits x); [discriminate|]. injection K1 as ->. destruct X as [_ X]. unfold all_of in X. rewrite forallb_app in X. apply andb_true_iff in X. destruct X as [_ X]. discriminate X.
Qed.
Print Assumptions C67_round_trip_exact.
Example C67_witness : exists v t, of_fields (Some 1%Z) (Some [2; 0; 3]%Z) (Some RC) (Some 4%Z) None (Some 0%Z) (Some [u "ab"; u "07"]) = Ok v /\ show v = Ok t /\ t = u "1!2.0.3rc4.dev0+ab.07".
Proof. eexists. eexists. split; [reflexivity|]. split; reflexivity. Qed.
(** Each of those conditions is needed: a release with trailing zeros is kept as it is, and is
    not equal to the same version parsed; negative release numbers are accepted, and their str()
    does not parse; a final version may have a serial, and then str() fails; a local segment may
    end in a newline, which str() shows and parsing drops. *)
Theorem C67_trailing_zero_refuted : exists v w, of_fields None (Some [1; 0]%Z) None None None None None = Ok v /\ show v = Ok (u "1.0") /\ parse (u "1.0") = Ok w /\ v_eq w v = false.
Proof. eexists. eexists. split; [reflexivity|]. split; [reflexivity|]. split; [vm_compute; reflexivity|]. reflexivity. Qed.
Print Assumptions C67_trailing_zero_refuted.
Theorem C67_negative_refuted : exists v, of_fields None (Some [-1]%Z) None None None None None = Ok v /\ show v = Ok (u "-1") /\ parse (u "-1") = Err ValueError.
Proof. eexists. split; [reflexivity|]. split; [reflexivity|]. vm_compute. reflexivity. Qed.
Print Assumptions C67_negative_refuted.
Theorem C67_final_serial_refuted : exists v, of_fields None (Some [1]%Z) None (Some 5%Z) None None None = Ok v /\ show v = Err AssertionError.
Proof. eexists. split; reflexivity. Qed.
Print Assumptions C67_final_serial_refuted.
Theorem C67_newline_refuted : exists v w, of_fields None (Some [1]%Z) None None None None (Some [[97; 10]%N]) = Ok v /\ show v = Ok [49; 43; 97; 10]%N /\ parse [49; 43; 97; 10]%N = Ok w /\ v_eq w v = false.
Proof. eexists. eexists. split; [reflexivity|]. split; [reflexivity|]. split; [vm_compute; reflexivity|]. reflexivity. Qed.
Print Assumptions C67_newline_refuted.

(** C68: Version(sys.version_info) has the numbers, level and serial of version_info; nothing else
    is set.  (serial is dropped for a final release, and if it is 0.) *)
Theorem C68_version_info : forall major minor micro level serial, (0 <= major)%Z -> (0 <= minor)%Z -> (0 <= micro)%Z -> (0 <= serial)%Z ->
  exists v, of_version_info major minor micro level serial = Ok v /\
    v_major v = Ok major /\ v_minor v = minor /\ v_micro v = micro /\
    v_level v = (match level with InfoAlpha => Alpha | InfoBeta => Beta | InfoCandidate => RC | InfoFinal => Final end) /\
    (level <> InfoFinal -> (serial <> 0%Z -> v_serial v = Some serial) /\ (serial = 0%Z -> v_serial v = None)) /\ (level = InfoFinal -> v_serial v = None) /\
    v_epoch v = None /\ v_post v = None /\ v_dev v = None /\ v_local v = None.
Proof.
  intros major minor micro level serial H1 H2 H3 H4. eexists. split; [apply version_info_fields; auto|].
  cbn [v_epoch v_release v_level v_serial v_post v_dev v_local].
  assert (Clip : clip [major; minor; micro] = [major; minor; micro] \/ micro = 0%Z /\ clip [major; minor; micro] = [major; minor] \/ micro = 0%Z /\ minor = 0%Z /\ clip [major; minor; micro] = [major]).
  { unfold clip. cbn [rev app clip_rev]. destruct (micro =? 0)%Z eqn:Z1; [|auto]. apply Z.eqb_eq in Z1. right. cbn [clip_rev]. destruct (minor =? 0)%Z eqn:Z2; [|auto]. apply Z.eqb_eq in Z2. right. auto. }
  unfold v_major, v_minor, v_micro. cbn [v_release].
  destruct Clip as [->|[[-> ->]|[-> [-> ->]]]]; (split; [reflexivity|]; split; [reflexivity|]; split; [reflexivity|]; split; [reflexivity|];
    split; [intros NF; destruct (serial =? 0)%Z eqn:Z0; [apply Z.eqb_eq in Z0|apply Z.eqb_neq in Z0]; (split; intros; destruct level; congruence)|];
    split; [intros ->; reflexivity|auto]).
Qed.
Print Assumptions C68_version_info.
Example C68_witness : of_version_info 3 13 0 InfoAlpha 2 = parse (u "3.13a2") /\ of_version_info 3 12 1 InfoFinal 0 = parse (u "3.12.1").
Proof. split; vm_compute; reflexivity. Qed.
(** major, minor and micro are the first three numbers of the text, or 0. *)
Theorem C68_major_minor_micro : forall s v, parse s = Ok v -> exists p,
  pep440 s p /\ let numbers := map int_of (split1 (fun c => (c =? 46)%N) (p_release p)) in
  v_major v = Ok (nth 0 numbers 0%Z) /\ v_minor v = nth 1 numbers 0%Z /\ v_micro v = nth 2 numbers 0%Z.
Proof.
  intros s v P. destruct (read_spec s v P) as [G J]. exists (read s). split; [exact G|]. cbv zeta.
  unfold interp in J. destruct (match p_pre (read s) with None => Some Final | Some (l, _) => level_of l end) as [lv|]; [|discriminate].
  injection J as <-. unfold v_major, v_minor, v_micro. cbn [v_release].
  set (ns := map int_of (split1 (fun c => (c =? 46)%N) (p_release (read s)))).
  assert (Ne : ns <> []).
  { unfold ns. intros X. apply map_eq_nil in X. destruct (p_release (read s)) as [|c t]; [discriminate|]. cbn in X. destruct (c =? 46)%N; [discriminate|]. destruct (split1 _ t); discriminate. }
  pose proof (clip_nth ns Ne) as K. assert (Nc : clip ns <> []) by (rewrite clip_significant by auto; destruct (significant ns); discriminate).
  rewrite <- !K. destruct (clip ns) as [|a [|b [|c l]]]; [congruence|..]; auto.
Qed.
Print Assumptions C68_major_minor_micro.

(** C55, the characters.  A letter of a word matches itself and its capital - and, because
    re.IGNORECASE works by Unicode, i also dotted I and dotless i, s also long s, k also the Kelvin
    sign; separators are . - _; segments of the local version are made of ASCII letters, digits and
    these four characters. *)
Theorem C55_characters : forall c d, (97 <= c <= 122)%N ->
  (ci c d = true <-> d = c \/ (d + 32)%N = c \/ (c = c1 "i" /\ (d = 304 \/ d = 305)%N) \/ (c = c1 "s" /\ d = 383%N) \/ (c = c1 "k" /\ d = 8490%N)) /\
  (is_sep d = true <-> d = c1 "." \/ d = c1 "-" \/ d = c1 "_") /\
  (is_alnum d = true <-> (c1 "0" <= d <= c1 "9")%N \/ (c1 "a" <= d <= c1 "z")%N \/ (c1 "A" <= d <= c1 "Z")%N \/ (d = 304 \/ d = 305 \/ d = 383 \/ d = 8490)%N).
Proof.
  intros c d H. unfold ci, is_sep, is_alnum, is_digit, between.
  repeat match goal with |- context [c1 ?s] => let v := eval vm_compute in (c1 s) in change (c1 s) with v end.
  rewrite ?orb_true_iff, ?andb_true_iff, ?orb_true_iff, ?N.leb_le, ?N.eqb_eq. repeat split; lia.
Qed.
Print Assumptions C55_characters.
Example C55_characters_witness : ci (c1 "k") 8490%N = true /\ ci (c1 "a") (c1 "A") = true /\ ci (c1 "a") (c1 "b") = false /\ is_alnum 383%N = true.
Proof. vm_compute. auto. Qed.
