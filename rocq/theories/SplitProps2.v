(** multisplit with strip: the properties C64-C66. *)
From Verif Require Import SplitModel SplitSpec SplitSpec2 SplitProof SplitProof2 SplitProof3 SplitProof4 SplitProps RegexProof PyBaseProof PyStrProof.

(** C64: strip=True, LEFT, RIGHT, and PROGRESSIVE without a limit, are multistrip and then
    the split of what is left. *)
Theorem C64_strip_then_split : forall s o keep maxsplit (reverse separate : bool) strip, valid o ->
  strip = StripTrue \/ strip = StripLeft \/ strip = StripRight \/ strip = Progressive /\ maxsplit = Some (-1)%Z ->
  exists s', multistrip s (seps_of o) (match strip with StripRight => false | _ => true end) (match strip with StripLeft => false | _ => true end) = Ok s' /\
    multisplit s o keep maxsplit reverse separate strip = multisplit s' o keep maxsplit reverse separate StripFalse.
Proof.
  intros s o keep m reverse separate strip V H.
  assert (MS : forall a b, exists s', multistrip s (seps_of o) a b = Ok s').
  { intros a b. destruct (multistrip s (seps_of o) a b) as [r|e] eqn:E; [eauto|exfalso].
    assert (e = ValueError) as -> by (unfold multistrip in E; destruct (is_nil (seps_of o)); [congruence|]; destruct (existsb is_nil (seps_of o)); [congruence|]; destruct a, b; cbn in E; congruence).
    apply C36_multistrip_errors in E. destruct V as [V1 V2]. destruct E as [E|E]; [auto|]. rewrite Forall_forall in V2. exact (V2 [] E eq_refl). }
  destruct (MS (match strip with StripRight => false | _ => true end) (match strip with StripLeft => false | _ => true end)) as [s' E]. exists s'. split; [exact E|].
  assert (Emp : forall sm rk, multisplit_gen [] (seps_of o) keep (Some 0%Z) reverse separate sm rk = multisplit_gen [] (seps_of o) keep m reverse separate StripFalse (match keep with KeepFalse => false | _ => true end)).
  { intros sm rk. pose proof (C32_multisplit_is_the_split [] o keep m reverse separate V) as (l & y & S & Q).
    assert (l = [] /\ y = []) as [-> ->].
    { change (split_from reverse separate (seps_of o) (limit_of m) [] l y) in S. pose proof (from_concat _ _ _ _ _ _ _ S) as C.
      assert (B : Forall (fun p : str * str => snd p <> []) l).
      { destruct V as [_ V2]. destruct reverse; cbn in S.
        - destruct (limit_of m) as [[|n]|]; [inversion S; subst; auto; congruence| |];
            (destruct (rsplits_clean _ _ _ _ _ V2 _ S) as (_ & B & _); [discriminate|]; eapply Forall_impl; [|exact B]; intros p Hp; apply Hp).
        - destruct (splits_clean _ _ _ _ _ V2 _ S) as (B & _). eapply Forall_impl; [|exact B]. intros p Hp; apply Hp. }
      destruct l as [|[a b] l]; [cbn in C; rewrite app_nil_r in C; auto|]. exfalso. inversion B; subst. cbn in *.
      destruct a; [|discriminate]. destruct b; [congruence|discriminate]. }
    unfold multisplit in Q. change (match o with Some l => l | None => str_whitespace end) with (seps_of o) in Q.
    destruct V as [V1 _]. destruct (seps_of o) as [|w0 sl] eqn:Es; [congruence|]. cbn [is_nil] in Q. injection Q as Q. rewrite Q. destruct keep; reflexivity. }
  unfold multisplit. change (match o with Some l => l | None => str_whitespace end) with (seps_of o).
  destruct (is_nil (seps_of o)); [reflexivity|].
  assert (Gen : forall sm rk, (sm = StripTrue \/ sm = StripLeft \/ sm = StripRight) -> rk = match keep with KeepFalse => false | _ => true end ->
     multisplit_gen s' (seps_of o) keep (if is_nil s' then Some 0%Z else m) reverse separate sm rk = multisplit_gen s' (seps_of o) keep m reverse separate StripFalse (match keep with KeepFalse => false | _ => true end)).
  { intros sm rk Hs ->. destruct s' as [|c s']; cbn [is_nil]; [apply Emp|]. destruct Hs as [->|[->| ->]]; reflexivity. }
  destruct H as [->|[->|[->|[-> ->]]]]; cbn [Z.eqb Pos.eqb] in *; rewrite E; f_equal; apply Gen; auto.
Qed.
Print Assumptions C64_strip_then_split.
Example C64_witness : valid (Some [u " "; u ","]) /\
  multisplit (u " , a,b ") (Some [u " "; u ","]) KeepTrue (Some 1%Z) true true StripLeft = Ok (map Str [u "a,b "; u ""]) /\
  multisplit (u " , a,b ") (Some [u " "; u ","]) KeepFalse (Some (-1)%Z) true true Progressive = Ok (map Str [u "a"; u "b"]).
Proof. split; [split; [discriminate|repeat constructor; discriminate]|]. split; vm_compute; reflexivity. Qed.

(** C65: PROGRESSIVE with maxsplit=n: the near end is stripped, the rest is split at most n
    times, and the empty strings at the far end are dropped. *)
Theorem C65_progressive : forall s o keep n (reverse separate : bool), valid o ->
  exists s' l y, multistrip s (seps_of o) (negb reverse) reverse = Ok s' /\
    (if reverse then rsplits separate (seps_of o) (Some n) s' l y else splits separate (seps_of o) (Some n) s' l y) /\
    let '(l', y') := if reverse then strip_start l y else strip_end l y in
    multisplit s o keep (Some (Z.of_nat n)) reverse separate Progressive = Ok
      match keep return list item with
      | KeepFalse => map Str (map fst l' ++ [y'])
      | KeepTrue => map Str (map (fun p : str * str => fst p ++ snd p) l' ++ [y'])
      | Alternating => map Str (flat_map (fun p : str * str => [fst p; snd p]) l' ++ [y'])
      | AsPairs => map (fun p : str * str => Two (fst p) (snd p)) l' ++ [Two y' []]
      end.
Proof.
  intros s o keep n reverse separate V.
  assert (MS : exists s', multistrip s (seps_of o) (negb reverse) reverse = Ok s').
  { destruct (multistrip s (seps_of o) (negb reverse) reverse) as [r|e] eqn:E; [eauto|exfalso].
    assert (e = ValueError) as -> by (unfold multistrip in E; destruct (is_nil (seps_of o)); [congruence|]; destruct (existsb is_nil (seps_of o)); [congruence|]; destruct reverse; cbn in E; congruence).
    apply C36_multistrip_errors in E. destruct V as [V1 V2]. destruct E as [E|E]; [auto|]. rewrite Forall_forall in V2. exact (V2 [] E eq_refl). }
  destruct MS as [s' E]. exists s'.
  assert (K : exists l y, split_from reverse separate (seps_of o) (Some n) s' l y /\
    multisplit_gen s' (seps_of o) keep (if is_nil s' then Some 0%Z else Some (Z.of_nat n)) reverse separate Progressive true = present keep (fst (strip_far reverse l y)) (snd (strip_far reverse l y))).
  { destruct V as [V1 V2]. destruct s' as [|c s'].
    - exists [], []. split.
      + assert (F : sep_free (seps_of o) []). { intros i (w & t & I & Q). rewrite Forall_forall in V2. specialize (V2 _ I). destruct i; destruct w; cbn in Q; congruence. }
        destruct reverse; cbn; [apply rsplit_none|apply split_none]; exact F.
      + destruct reverse, keep; reflexivity.
    - cbn [is_nil]. destruct n as [|n]; [|apply gen_progressive; auto]. exists [], (c :: s'). split.
      + destruct reverse; cbn; constructor.
      + destruct reverse, keep; reflexivity. }
  destruct K as (l & y & S & Q). exists l, y. split; [exact E|]. split; [exact S|].
  unfold strip_far in Q.
  assert (G : multisplit s o keep (Some (Z.of_nat n)) reverse separate Progressive = Ok (present keep (fst (if reverse then strip_start l y else strip_end l y)) (snd (if reverse then strip_start l y else strip_end l y)))).
  { rewrite <- Q. unfold multisplit. change (match o with Some l => l | None => str_whitespace end) with (seps_of o). destruct V as [V1 _].
    destruct (is_nil (seps_of o)) eqn:Nl; [destruct (seps_of o); [congruence|discriminate]|].
    destruct (Z.eqb_spec (Z.of_nat n) (-1)); [lia|]. rewrite E. reflexivity. }
  destruct (if reverse then strip_start l y else strip_end l y) as [l' y']. rewrite G. cbn [fst snd]. destruct keep; cbn [present]; auto. now rewrite map_app.
Qed.
Print Assumptions C65_progressive.
Example C65_witness :
  multisplit (u " a b c   ") None KeepFalse (Some 2%Z) false false Progressive = Ok (map Str [u "a"; u "b"; u "c   "]) /\
  multisplit (u " a b c   ") None KeepFalse (Some 3%Z) false false Progressive = Ok (map Str [u "a"; u "b"; u "c"]) /\
  multisplit (u "  a b c ") None Alternating (Some 3%Z) true false Progressive = Ok (map Str [u "a"; u " "; u "b"; u " "; u "c"]) /\
  multisplit (u "  a b c ") None KeepTrue (Some 2%Z) true true Progressive = Ok (map Str [u "  a "; u "b "; u "c"]).
Proof. repeat split; vm_compute; reflexivity. Qed.
(** maxsplit=None means "no limit" as -1 does, but with PROGRESSIVE the far end then is not
    stripped. *)
Theorem C65_maxsplit_None_refuted :
  multisplit (u " a ") None KeepFalse (Some (-1)%Z) false false Progressive = Ok (map Str [u "a"]) /\
  multisplit (u " a ") None KeepFalse None false false Progressive = Ok (map Str [u "a"; u ""]).
Proof. split; vm_compute; reflexivity. Qed.
Print Assumptions C65_maxsplit_None_refuted.
Theorem C65_no_separators : forall s keep maxsplit (reverse separate : bool) strip, multisplit s (Some []) keep maxsplit reverse separate strip = Err ValueError.
Proof. reflexivity. Qed.
Print Assumptions C65_no_separators.

(** C66: with strip=PROGRESSIVE and whitespace separators multisplit is str.split(None, n),
    and with reverse str.rsplit(None, n). *)
Lemma splits_ends p seps n s l y : class_like p seps -> splits false seps n s l y -> y = [] -> s = [] \/ exists t c, s = t ++ [c] /\ p c = true.
Proof.
  intros C. induction 1 as [s|n s F|n x w t l y Hn Lf O Sp IH]; intros Y; auto. right.
  destruct (IH Y) as [->|(t' & c & -> & P)].
  - cbn [one_split] in O. destruct (class_run p seps w [] C O) as (W1 & W2 & _). destruct (exists_last W1) as (w' & c & ->).
    exists (x ++ w'), c. rewrite app_nil_r, app_assoc. split; auto. rewrite forallb_app in W2. apply andb_true_iff in W2 as [_ W2]. cbn in W2. now rewrite andb_true_r in W2.
  - exists (x ++ w ++ t'), c. rewrite <- !app_assoc. auto.
Qed.
Lemma of_seps_class p seps s : class_like p seps -> of_seps seps s -> forallb p s = true.
Proof.
  intros [C _] (l & F & ->). induction F as [|w l I F IH]; cbn; auto. rewrite forallb_app, IH. destruct (C w I) as [_ ->]. reflexivity.
Qed.
Lemma rev_map_rev (L : list str) : rev (map (@rev chr) (rev (map (@rev chr) L))) = L.
Proof. rewrite map_rev, rev_involutive, map_map, (map_ext _ (fun x => x)) by (intros; apply rev_involutive). apply map_id. Qed.
Lemma forallb_rev {A} (f : A -> bool) l : forallb f (rev l) = forallb f l.
Proof. induction l as [|x l IH]; cbn; auto. rewrite forallb_app, IH. cbn. rewrite andb_true_r. apply andb_comm. Qed.
Lemma rsplits_words p seps n s l y : class_like p seps -> rsplits false seps n s l y -> (exists t c, s = t ++ [c] /\ p c = false) ->
  ws_rsplit p n s (map fst (fst (strip_start l y)) ++ [snd (strip_start l y)]).
Proof.
  intros C S (t & c & -> & P). unfold ws_rsplit. apply rsplits_rev in S; [|eapply class_nonempty; eauto]. destruct S as (a & b & S & Q).
  apply (f_equal (fun L => rev (map (@rev chr) L))) in Q. rewrite rev_map_rev in Q.
  pose proof (strip_mirror a b l y (eq_sym Q)) as M. pose proof (splits_words p _ _ _ _ _ (class_rev _ _ C) S) as W.
  rewrite rev_unit in *. specialize (W P). destruct (strip_end a b) as [l3 y3], (strip_start l y) as [l2 y2]. cbn [fst snd] in *.
  destruct (mirror_exists l3 y3) as (l4 & x4 & E4 & F4). rewrite <- M in E4. apply alternating_inj in E4 as [-> ->]. rewrite F4, rev_map_rev. exact W.
Qed.
Definition not_blank (s : str) : Prop := existsb (fun c => negb (is_space c)) s = true.
Lemma not_blank_spec s : not_blank s <-> forallb is_space s = false.
Proof. unfold not_blank. induction s as [|c s IH]; cbn; [split; discriminate|]. destruct (is_space c); cbn; auto. tauto. Qed.
Lemma strip_ws s left right : not_blank s -> exists a r b, multistrip s str_whitespace left right = Ok r /\ s = a ++ r ++ b /\
  forallb is_space a = true /\ forallb is_space b = true /\ (left = false -> a = []) /\ (right = false -> b = []) /\ r <> [] /\
  (left = true -> exists c t, r = c :: t /\ is_space c = false) /\ (right = true -> exists t c, r = t ++ [c] /\ is_space c = false).
Proof.
  intros NB. apply not_blank_spec in NB. pose proof (whitespace_class str_whitespace (or_intror eq_refl)) as C.
  destruct (C36_multistrip_partial s str_whitespace left right valid_none) as (a & r & b & E & Es & Oa & Ob & La & Lb & Na & Nb).
  { right; left. vm_compute. auto. }
  exists a, r, b. pose proof (of_seps_class _ _ _ C Oa) as Fa. pose proof (of_seps_class _ _ _ C Ob) as Fb.
  assert (Nr : r <> []). { intros ->. rewrite Es, !forallb_app, Fa, Fb in NB. discriminate. }
  split; [exact E|]. split; [exact Es|]. split; [exact Fa|]. split; [exact Fb|]. split; [exact La|]. split; [exact Lb|]. split; [exact Nr|]. split.
  - intros Hl. destruct r as [|c t]; [congruence|]. exists c, t. split; auto. destruct (is_space c) eqn:Q; auto. exfalso. apply (Na Hl). exists [c], t. split; auto. apply C. exact Q.
  - intros Hr. destruct (exists_last Nr) as (t & c & ->). exists t, c. split; auto. destruct (is_space c) eqn:Q; auto. exfalso. apply (Nb Hr). exists [c], t. split; auto. apply C. exact Q.
Qed.

Theorem C66_as_str_split_partial : forall s n (reverse : bool), not_blank s -> exists l,
  multisplit s None KeepFalse (Some (Z.of_nat n)) reverse false Progressive = Ok (map Str l) /\
  (if reverse then ws_rsplit is_space (Some n) s l else ws_split is_space (Some n) s l).
Proof.
  intros s n reverse NB. pose proof (whitespace_class str_whitespace (or_intror eq_refl)) as C.
  destruct (C65_progressive s None KeepFalse n reverse false valid_none) as (s' & l & y & E & S & Q). cbn [seps_of] in *.
  destruct (strip_ws s (negb reverse) reverse NB) as (a & r & b & E' & Es & Fa & Fb & La & Lb & Nr & Hl & Hr).
  assert (r = s') as -> by congruence.
  destruct reverse; cbn [negb] in *.
  - rewrite (La eq_refl) in Es. cbn in Es. pose proof (rsplits_words _ _ _ _ _ _ C S (Hr eq_refl)) as W.
    destruct (strip_start l y) as [l' y']. eexists. split; [exact Q|]. cbn [fst snd] in W. unfold ws_rsplit in *. rewrite Es, rev_app_distr. apply ws_prefix; auto. now rewrite forallb_rev.
  - rewrite (Lb eq_refl), app_nil_r in Es. destruct (Hl eq_refl) as (c & t & -> & P).
    pose proof (splits_words _ _ _ _ _ _ C S P) as W.
    destruct (strip_end l y) as [l' y']. eexists. split; [exact Q|]. cbn [fst snd] in W. rewrite Es. apply ws_prefix; auto.
Qed.
Print Assumptions C66_as_str_split_partial.
Lemma ws_snoc p s l : ws_split p None s l -> (s = [] \/ exists t c, s = t ++ [c] /\ p c = true) -> forall w a, w <> [] -> forallb (fun c => negb (p c)) w = true ->
  forallb p a = true -> ws_split p None (s ++ w ++ a) (l ++ [w]).
Proof.
  remember (@None nat) as o. induction 1 as [n a0 A|a0 c t A C|n a0 w0 r l N A W F R S IH]; intros E w a Nw Fw Fa; subst; try discriminate.
  - cbn [app]. apply ws_word; auto; [discriminate|destruct a; auto; cbn in Fa; apply andb_true_iff in Fa; tauto|]. apply ws_none; auto.
  - cbn [app]. rewrite <- !app_assoc. apply ws_word; auto.
    + destruct r as [|c r]; [|cbn; exact R]. exfalso. rewrite app_nil_r in E. destruct E as [E|(t & c & E & P)].
      * destruct a0; [|discriminate]. cbn in E. congruence.
      * destruct (exists_last W) as (w1 & d & ->). rewrite app_assoc in E. apply app_inj_tail in E as [_ ->]. rewrite forallb_app in F. apply andb_true_iff in F as [_ F]. cbn in F. rewrite P in F. discriminate.
    + apply IH; auto. destruct r as [|c r]; auto. right. destruct E as [E|(t & d & E & P)]; [destruct a0; [destruct w0; [congruence|discriminate]|discriminate]|].
      assert (Q : c :: r <> []) by discriminate. destruct (exists_last Q) as (r' & e & Er). rewrite Er in *. exists r', e. split; auto. rewrite !app_assoc in E. apply app_inj_tail in E as [_ ->]. exact P.
Qed.
Lemma ws_rev p s l : ws_split p None s l -> ws_split p None (rev s) (rev (map (@rev chr) l)).
Proof.
  remember (@None nat) as o. induction 1 as [n a A|a c t A C|n a w r l N A W F R S IH]; subst; try discriminate.
  - apply ws_none. now rewrite forallb_rev.
  - rewrite !rev_app_distr, <- app_assoc. cbn [map rev]. apply ws_snoc; rewrite ?forallb_rev; auto.
    + destruct r as [|c r]; auto. right. exists (rev r), c. auto.
    + intros Q. apply W. rewrite <- (rev_involutive w), Q. reflexivity.
Qed.
Lemma unlimited_words p seps s : class_like p seps -> seps <> [] -> (exists c t, s = c :: t /\ p c = false) -> (exists t c, s = t ++ [c] /\ p c = false) ->
  exists l, multisplit s (Some seps) KeepFalse (Some (-1)%Z) false false StripFalse = Ok (map Str l) /\ ws_split p None s l.
Proof.
  intros C N (c & t & E1 & P1) (t' & d & E2 & P2).
  assert (V : valid (Some seps)) by (split; [exact N|eapply class_nonempty; eauto]).
  destruct (C32_multisplit_is_the_split s (Some seps) KeepFalse (Some (-1)%Z) false false V) as (l & y & S & Q). cbn [seps_of limit_of Z.eqb Pos.eqb] in S.
  assert (Y : y <> []).
  { intros Y. destruct (splits_ends _ _ _ _ _ _ C S Y) as [->|(t2 & e & E3 & P3)]; [discriminate|]. rewrite E2 in E3. apply app_inj_tail in E3 as [_ ->]. congruence. }
  eexists. split; [exact Q|]. pose proof (splits_words p seps None s l y C S) as W. rewrite strip_end_last in W by exact Y. apply W. now rewrite E1.
Qed.
Theorem C66_as_str_split_unlimited_partial : forall s (reverse : bool) strip, strip = StripTrue \/ strip = Progressive -> not_blank s -> exists l,
  multisplit s None KeepFalse (Some (-1)%Z) reverse false strip = Ok (map Str l) /\ ws_split is_space None s l /\ ws_rsplit is_space None s l.
Proof.
  intros s reverse strip Hs NB. pose proof (whitespace_class str_whitespace (or_intror eq_refl)) as C.
  destruct (C64_strip_then_split s None KeepFalse (Some (-1)%Z) reverse false strip valid_none) as (s' & E & Q); [destruct Hs as [-> | ->]; auto|].
  assert (E' : multistrip s str_whitespace true true = Ok s') by (destruct Hs as [-> | ->]; exact E).
  destruct (strip_ws s true true NB) as (a & r & b & Er & Es & Fa & Fb & _ & _ & Nr & Hl & Hr). assert (r = s') as -> by congruence. specialize (Hl eq_refl). specialize (Hr eq_refl).
  assert (K : forall l, ws_split is_space None s' l -> ws_split is_space None s l /\ ws_rsplit is_space None s l).
  { intros l W. assert (W' : ws_split is_space None s l) by (rewrite Es; apply ws_prefix; auto; apply ws_suffix; auto). split; [exact W'|]. unfold ws_rsplit. now apply ws_rev. }
  change None with (@None (list str)) in Q. rewrite Q. change (multisplit s' None) with (multisplit s' (Some str_whitespace)). destruct reverse.
  - pose proof (C35_reverse_is_mirror s' str_whitespace KeepFalse (Some (-1)%Z) false valid_none (or_intror eq_refl)) as M.
    destruct (unlimited_words is_space (map (@rev chr) str_whitespace) (rev s')) as (l & El & W).
    + apply class_rev, C.
    + discriminate.
    + destruct Hr as (t & c & -> & P). exists c, (rev t). split; auto. apply rev_unit.
    + destruct Hl as (c & t & -> & P). exists (rev t), c. auto.
    + exists (rev (map (@rev chr) l)). split.
      * etransitivity; [exact M|]. etransitivity; [apply (f_equal (rmap mirror) El)|]. cbn [rmap]. f_equal. unfold mirror. rewrite !map_map, map_rev, map_map. reflexivity.
      * apply K. pose proof (ws_rev _ _ _ W) as W'. now rewrite rev_involutive in W'.
  - destruct (unlimited_words is_space str_whitespace s' C) as (l & El & W); auto; [discriminate|]. exists l. split; [exact El|]. apply K, W.
Qed.
Print Assumptions C66_as_str_split_unlimited_partial.
(** the relations leave no choice *)
Theorem C66_split_is_unique : forall p n s l l', (ws_split p n s l -> ws_split p n s l' -> l = l') /\ (ws_rsplit p n s l -> ws_rsplit p n s l' -> l = l').
Proof.
  intros p n s l l'. split; intros A B; [eapply ws_fun; eauto|]. unfold ws_rsplit in *. pose proof (ws_fun _ _ _ _ A _ B) as Q.
  apply (f_equal (fun L => rev (map (@rev chr) L))) in Q. now rewrite !rev_map_rev in Q.
Qed.
Print Assumptions C66_split_is_unique.
(** A string of whitespace only: str.split gives no strings, multisplit one empty string. *)
Theorem C66_blank_refuted : multisplit (u "  ") None KeepFalse (Some (-1)%Z) false false StripTrue = Ok [Str []] /\
  multisplit (u "  ") None KeepFalse (Some 1%Z) false false Progressive = Ok [Str []] /\ ws_split is_space (Some 1) (u "  ") [] /\ ~ ws_split is_space (Some 1) (u "  ") [[]].
Proof.
  split; [vm_compute; reflexivity|]. split; [vm_compute; reflexivity|]. assert (W : ws_split is_space (Some 1) (u "  ") []) by (apply ws_none; reflexivity).
  split; [exact W|]. intros H. pose proof (ws_fun _ _ _ _ W _ H). discriminate.
Qed.
Print Assumptions C66_blank_refuted.
Example C66_witness : not_blank (u " a b  c ") /\ multisplit (u " a b  c ") None KeepFalse (Some 1%Z) true false Progressive = Ok (map Str [u " a b"; u "c"]).
Proof. split; vm_compute; reflexivity. Qed.

(** C38: the only error of normalize_whitespace (arguments of the right types) is the one
    for an empty separator or no separators. *)
Theorem C38_errors : forall s o r e, normalize_whitespace s o r = Err e <-> e = ValueError /\ exists seps, o = Some seps /\ (seps = [] \/ In [] seps).
Proof.
  intros s [seps|] r e.
  - destruct (existsb is_nil seps) eqn:X.
    + unfold normalize_whitespace. rewrite X. split; [intros [= <-]|now intros [-> _]]. split; auto. exists seps. split; auto. right. apply existsb_exists in X as (x & I & Q). destruct x; [auto|discriminate].
    + destruct seps as [|w seps].
      * split; [|now intros [-> _]]. cbn. intros [= <-]. eauto.
      * assert (V : valid (Some (w :: seps))).
        { split; [discriminate|]. apply Forall_forall. intros x I ->. apply not_true_iff_false in X. apply X. apply existsb_exists. exists []. auto. }
        destruct (C38_normalize_any s (w :: seps) r V) as (l & y & _ & ->). split; [discriminate|]. intros [_ (s' & [= <-] & [Q|Q])]; [discriminate|].
        destruct V as [_ V]. cbn [seps_of] in V. rewrite Forall_forall in V. destruct (V _ Q eq_refl).
  - rewrite C38_normalize. split; [discriminate|]. intros [_ (s' & Q & _)]. discriminate.
Qed.
Print Assumptions C38_errors.
Example C38_errors_witness : normalize_whitespace (u "a b") (Some [u " "; []]) (Some (u "x")) = Err ValueError /\ normalize_whitespace (u "a b") (Some [u " "]) (Some []) = Ok (u "ab").
Proof. vm_compute. auto. Qed.
