(** C117: what the pattern strings big builds and contains mean to Python's re. *)
From Verif Require Import PyBase SplitSpec SplitProof PatModel PatProof PatProof2.
Require Import ZifyBool ZifyN.

(** What is assumed of re.escape (any version of Python) and of isspace: every character with a meaning in patterns is escaped, letters and digits are not,
    and no such character is white space. *)
Definition escapes_well (special : chr -> bool) : Prop :=
  (forall c, In c (u "\.^$*+?{}[]|()") -> special c = true) /\ (forall c, special c = true -> ascii_alnum c = false).
Definition no_meta_space (space : chr -> bool) : Prop := forall c, space c = true -> ~ In c (u "\.^$*+?{}[]|()").
Lemma meta_in c : meta c = true <-> In c (u "\.^$*+?{}[]|()").
Proof. unfold meta. rewrite existsb_exists. split; [intros (x & I & E); apply N.eqb_eq in E; subst; auto | intros I; exists c; split; auto; apply N.eqb_refl]. Qed.

(** Separators are taken literally, whatever characters they are made of: the pattern is well-formed; it matches exactly where a separator is,
    and then the longest one (separate) or the maximal run of separators; with keep, group 1 is the text matched; and re.split cuts exactly there. *)
Theorem C117_separators (special space : chr -> bool) (seps : list str) (separate keep : bool) :
  escapes_well special -> no_meta_space space -> seps <> [] -> Forall (fun w => w <> []) seps ->
  exists r, compile N.eqb space false (separators_to_re special space seps separate keep) = Some (r, []) /\
    (forall s, match re_match r s with
               | None => ~ sep_at seps s 0
               | Some (g, t) => exists w, s = w ++ t /\ one_split separate seps w t /\ g = (if keep then [(1, w)] else [])
               end) /\
    (forall n s, splits separate seps n s (fst (re_split r n s)) (snd (re_split r n s))).
Proof.
  intros [E1 E2] S N F.
  destruct (compile_pattern special space (fun c H => E1 c (proj1 (meta_in c) H)) E2 (fun c H => match meta c as b return (meta c = b -> b = false) with true => fun M => False_ind _ (S c H (proj1 (meta_in c) M)) | false => fun _ => eq_refl end eq_refl) seps separate keep N) as (r & C & A).
  exists r. split; auto. split.
  - intros s. rewrite (alike_match _ _ s A). pose proof (match_spec separate seps s F) as M. destruct keep.
    + pose proof (grp_ends 1 (separators_re seps separate) s) as E.
      destruct (re_match (Grp 1 (separators_re seps separate)) s) as [[g t]|] eqn:R; destruct (re_match (separators_re seps separate) s) as [[g' t']|] eqn:R'; cbn in E; try discriminate; auto.
      injection E as <-. destruct M as (w & Ew & O & _). exists w. split; auto. split; auto.
      apply grp_groups in R; [|apply plain_separators]. rewrite R, Ew, app_length. replace (length w + length t - length t) with (length w) by lia. now rewrite firstn_app, Nat.sub_diag, firstn_all, app_nil_r.
    + destruct (re_match (separators_re seps separate) s) as [[g t]|] eqn:R; auto. destruct M as (w & Ew & O & _). exists w. split; auto. split; auto.
      eapply plain_groups; [apply plain_separators|exact R].
  - intros n s. assert (E : same_ends r (separators_re seps separate)).
    { eapply ends_trans; [apply alike_ends; exact A|]. destruct keep; [apply grp_ends|intros x; reflexivity]. }
    rewrite (ends_split _ _ E). apply split_spec. exact F.
Qed.
Print Assumptions C117_separators.

(** The patterns of multistrip and of lines_filter_line_comment_lines mean what the models of C36 and C58 say. *)
Theorem C117_other_patterns (special space : chr -> bool) (seps : list str) :
  escapes_well special -> no_meta_space space -> seps <> [] -> Forall (fun w => w <> []) seps ->
  exists left right comment,
    compile N.eqb space false (left_pattern special space seps) = Some (left, []) /\
    compile N.eqb space false (right_pattern special space seps) = Some (right, []) /\
    compile N.eqb space false (comment_pattern special space seps) = Some (comment, []) /\
    forall s, re_match left s = re_match (separators_re seps false) s /\
              re_search right s = re_search (Seq (separators_re seps false) Eol) s /\
              re_match comment s = re_match (Seq (Star (Chr space)) (separators_re seps false)) s.
Proof.
  intros [E1 E2] S N F.
  assert (H1 : forall c, meta c = true -> special c = true) by (intros c H; apply E1, meta_in; auto).
  assert (H3 : forall c, space c = true -> meta c = false) by (intros c H; destruct (meta c) eqn:M; auto; apply meta_in in M; exfalso; eapply S; eauto).
  destruct (compile_left special space H1 E2 H3 seps N F) as (l & C1 & A1). destruct (compile_right special space H1 E2 H3 seps N F) as (r & C2 & A2).
  destruct (compile_comment special space H1 E2 H3 seps N F) as (c & C3 & A3). exists l, r, c. repeat (split; auto).
  - apply alike_match; auto.
  - apply ends_search, alike_ends; auto.
  - apply alike_match; auto.
Qed.
Print Assumptions C117_other_patterns.

(** the text of a named group *)
Definition named (ns : list (str * nat)) (g : groups) (name : str) : option str :=
  match find (fun p => str_eqb (fst p) name) ns with Some (_, i) => group g i | None => None end.
(** The groups Version uses, and their numbers in VersionModel. *)
Definition used_groups : list (str * nat) :=
  [(u "epoch", 0); (u "release", 1); (u "pre_l", 2); (u "pre_n", 3); (u "post_n1", 4); (u "post_l", 5); (u "post_n2", 6); (u "dev_l", 7); (u "dev_n", 8); (u "local", 9)].
(** VERSION_PATTERN is well-formed, and finds in every string what the tree of VersionModel (C26-C30, C67) finds. *)
Theorem C117_version_pattern : exists r ns,
  compile ci is_space true VERSION_PATTERN = Some (r, ns) /\
  forall s, match re_match r s, re_match version_re s with
            | Some (g, t), Some (g', t') => t = t' /\ forall name j, In (name, j) used_groups -> named ns g name = group g' j
            | None, None => True
            | _, _ => False
            end.
Proof.
  destruct version_sem as (r & C & S). exists r, names. split; auto. intros s. unfold re_match.
  assert (H : orel (fun (x y : groups * str) => snd x = snd y /\ G_names num (fst x) (fst y)) (rmatch r s [] (fun s g => Some (g, s))) (rmatch version_re s [] (fun s g => Some (g, s)))).
  { apply S; [intros j i _; reflexivity|]. intros s1 g1 g1' H. cbn. auto. }
  destruct (rmatch r s [] _) as [[g t]|], (rmatch version_re s [] _) as [[g' t']|]; cbn in H; try tauto. destruct H as [H1 H2]. split; auto.
  intros name j I. assert (A : Forall (fun p => named names g (fst p) = group g' (snd p)) used_groups).
  { repeat (apply Forall_cons; [apply H2; reflexivity|]). apply Forall_nil. }
  rewrite Forall_forall in A. apply (A _ I).
Qed.
Print Assumptions C117_version_pattern.
Theorem C117_segment_pattern : exists r, compile N.eqb is_space false SEGMENT_PATTERN = Some (r, []) /\
  forall s, valid_segment s = match re_match r s with Some _ => true | None => false end.
Proof. destruct segment_sem as (r & C & A). exists r. split; auto. intros s. unfold valid_segment. now rewrite <- (alike_match _ _ s A). Qed.
Print Assumptions C117_segment_pattern.

(** the hypotheses hold of Python 3.7's re.escape and of str.isspace *)
Example C117_hypotheses : escapes_well special_37 /\ no_meta_space is_space.
Proof.
  split; [split|].
  - intros c I. cbn in I. repeat (destruct I as [<-|I]; [reflexivity|]). destruct I.
  - intros c H. unfold special_37 in H. apply existsb_exists in H. destruct H as (x & I & E). apply N.eqb_eq in E. subst x. cbn in I. repeat (destruct I as [<-|I]; [reflexivity|]). destruct I.
  - intros c H I. cbn in I. repeat (destruct I as [<-|I]; [discriminate H|]). destruct I.
Qed.
(** the pattern for '.', '+-', ' ', CR LF and the letters s and d; it is what re.split gets *)
Example C117_pattern : separators_to_re special_37 is_space [u "."; u "+-"; u " "; [13; 10]%N; u "sd"] false true =
  u "((?:\+\-|(?:" ++ [13; 10]%N ++ u ")|sd|\.| )+)".
Proof. vm_compute. reflexivity. Qed.
(** without re.escape '.' would split everywhere *)
Example C117_unescaped : option_map (fun p => fst (re_split (fst p) None (u "a.b"))) (compile N.eqb is_space false (u ".")) = Some [(u "", u "a"); (u "", u "."); (u "", u "b")].
Proof. vm_compute. reflexivity. Qed.
