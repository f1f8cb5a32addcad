(** multisplit, lines and str.splitlines, str.split: the properties C96 and C99. *)
From Verif Require Import SplitModel SplitSpec SplitSpec2 SplitSpec3 SplitProof SplitProof2 SplitProof3 SplitProps SplitProps2 RegexProof PyBaseProof PyStrProof.
From Verif Require Import ConstModel ConstSpec ConstProps DelimModel LinesModel LinesSpec LinesProps.

Lemma linebreak_iff b c : is_linebreak b c = true <-> (if b then bytes_linebreak c else python_linebreak c).
Proof. unfold is_linebreak, bytes_linebreak, python_linebreak, between. destruct b; rewrite ?orb_true_iff, ?andb_true_iff, ?N.leb_le, ?N.eqb_eq; lia. Qed.
Lemma linebreaks_exactly b : exactly (linebreaks_of b) (fun c => is_linebreak b c = true) true.
Proof.
  destruct (C95_linebreaks true) as (A & _ & _ & B). destruct b; cbn [linebreaks_of]; [destruct B as [N H]|destruct A as [N H]]; split; auto; intros w; rewrite H;
  (split; (intros [(c & -> & P)|?]; [left; exists c; split; auto; apply (linebreak_iff true c) in P || apply (linebreak_iff false c) in P || (apply (linebreak_iff true c); exact P) || (apply (linebreak_iff false c); exact P); exact P|auto])).
Qed.
Lemma valid_linebreaks b : valid (Some (linebreaks_of b)).
Proof. split; [destruct b; discriminate|]. cbn [seps_of]. destruct b; repeat constructor; discriminate. Qed.
Section Lines.
  Context (b : bool) (k : bool).
  Let p := is_linebreak b.
  Let seps := linebreaks_of b.
  Lemma cr_lf_breaks : p 13%N = true /\ p 10%N = true.
  Proof. unfold p. destruct b; split; reflexivity. Qed.
  Lemma in_seps w : In w seps <-> (exists c, w = [c] /\ p c = true) \/ w = crlf.
  Proof. destruct (linebreaks_exactly b) as [_ H]. unfold seps, p. rewrite H. split; intros [?|?]; auto. tauto. Qed.
  Lemma sep_char s i : sep_at seps s i <-> exists c t, skipn i s = c :: t /\ p c = true.
  Proof.
    split.
    - intros (w & t & I & E). apply in_seps in I as [(c & -> & P)| ->]; [exists c, t|exists 13%N, (10%N :: t)]; split; auto. apply cr_lf_breaks.
    - intros (c & t & E & P). exists [c], t. split; auto. apply in_seps. eauto.
  Qed.
  Lemma free_chars s : sep_free seps s -> forallb (fun c => negb (p c)) s = true.
  Proof.
    intros F. apply forallb_forall. intros c I. apply negb_true_iff. destruct (p c) eqn:P; auto. exfalso. apply in_split in I as (s1 & s2 & ->). apply (F (length s1)). apply sep_char.
    exists c, s2. split; auto. rewrite skipn_app, skipn_all, Nat.sub_diag. reflexivity.
  Qed.
  Lemma run_chars x r : forallb (fun c => negb (p c)) x = true -> forall line, split_lines p k line (x ++ r) = split_lines p k (line ++ x) r.
  Proof.
    induction x as [|c x IH]; cbn; intros F line; [now rewrite app_nil_r|]. apply andb_true_iff in F as [P F]. apply negb_true_iff in P. rewrite P. rewrite IH by auto. now rewrite <- app_assoc.
  Qed.
  Lemma cut_chars x w t : (forall i, i < length x -> ~ sep_at seps (x ++ w ++ t) i) -> forallb (fun c => negb (p c)) x = true.
  Proof.
    intros F. apply forallb_forall. intros c I. apply negb_true_iff. destruct (p c) eqn:P; auto. exfalso. apply in_split in I as (s1 & s2 & ->). apply (F (length s1)); [rewrite app_length; cbn; lia|]. apply sep_char.
    exists c, (s2 ++ w ++ t). split; auto. rewrite <- app_assoc, skipn_app, skipn_all, Nat.sub_diag. reflexivity.
  Qed.
  Lemma cut_line w t line : longest seps w t -> split_lines p k line (w ++ t) = (line ++ if k then w else []) :: split_lines p k [] t.
  Proof.
    intros [I M]. destruct cr_lf_breaks as [P13 P10]. pose proof I as I'. apply in_seps in I' as [(c & -> & P)| ->].
    - cbn [app split_lines]. rewrite P. destruct t as [|d t]; [destruct k; reflexivity|]. destruct ((c =? 13) && (d =? 10))%N eqn:Q; [|destruct k; reflexivity].
      apply andb_true_iff in Q as [Q1 Q2]. apply N.eqb_eq in Q1, Q2. subst. exfalso. specialize (M crlf t). cbn in M. assert (2 <= 1); [|lia]. apply M; auto. apply in_seps. auto.
    - cbn [app crlf split_lines]. rewrite P13. cbn. destruct k; reflexivity.
  Qed.
  Lemma splits_lines n s l y : n = None -> splits true seps n s l y ->
    split_lines p k [] s ++ (if is_nil y then [[]] else []) = map (fun q => fst q ++ if k then snd q else []) l ++ [y] /\ forallb (fun c => negb (p c)) y = true.
  Proof.
    intros En. induction 1 as [s|n s F|n x w t l y N Lf O S IH]; subst; [discriminate| |].
    - apply free_chars in F. split; auto. rewrite <- (app_nil_r s) at 1. rewrite run_chars by auto. cbn. destruct s; reflexivity.
    - destruct (IH eq_refl) as [IH1 IH2]. split; auto. apply cut_chars in Lf. rewrite run_chars by auto. cbn [app]. rewrite cut_line by exact O. cbn [map fst snd app]. f_equal. exact IH1.
  Qed.
  Lemma ends_line_y n s l y : n = None -> splits true seps n s l y -> is_nil y = ends_line p s.
  Proof.
    intros En S. pose proof (splits_lines n s l y En S) as [_ F]. unfold ends_line. revert F. induction S as [s|n s F0|n x w t l y N Lf O S IH]; subst; intros F; [discriminate| |].
    - destruct s as [|c s] using rev_ind; [reflexivity|]. rewrite rev_unit. rewrite forallb_app in F. apply andb_true_iff in F as [_ F]. cbn in F. rewrite andb_true_r in F. apply negb_true_iff in F. rewrite F. now destruct s.
    - specialize (IH eq_refl F). rewrite IH. destruct t as [|c t] using rev_ind.
      + cbn. rewrite app_nil_r. destruct O as [I _]. apply in_seps in I as [(c & -> & P)| ->].
        * now rewrite rev_unit, P.
        * rewrite rev_app_distr. cbn. symmetry. apply cr_lf_breaks.
      + rewrite !app_assoc, !rev_unit. reflexivity.
  Qed.
End Lines.

(** C96.  "list(multisplit(s, linebreaks, keep=keepends, separate=True))", with an empty string at
    the end removed, is s.splitlines(keepends); there is one at the end exactly if s is empty or
    ends with a line break.  For str with str_linebreaks and for bytes with bytes_linebreaks. *)
Theorem C96_multisplit_is_splitlines : forall (is_bytes keepends : bool) s, exists l,
  multisplit s (Some (if is_bytes then bytes_linebreaks else str_linebreaks)) (if keepends then KeepTrue else KeepFalse) (Some (-1)%Z) false true StripFalse = Ok (map Str l) /\
  l = split_lines (is_linebreak is_bytes) keepends [] s ++ (if ends_line (is_linebreak is_bytes) s then [[]] else []) /\
  without_last_empty l = split_lines (is_linebreak is_bytes) keepends [] s.
Proof.
  intros b k s.
  destruct (C32_multisplit_is_the_split s (Some (linebreaks_of b)) (if k then KeepTrue else KeepFalse) (Some (-1)%Z) false true (valid_linebreaks b)) as (l & y & S & E). cbn in S.
  destruct (splits_lines b k _ _ _ _ eq_refl S) as [Q F]. pose proof (ends_line_y b k _ _ _ _ eq_refl S) as Y. exists (map (fun q => fst q ++ if k then snd q else []) l ++ [y]). split; [|split].
  - transitivity (multisplit s (Some (linebreaks_of b)) (if k then KeepTrue else KeepFalse) (Some (-1)%Z) false true StripFalse); [destruct b; reflexivity|]. rewrite E. destruct k; auto. do 3 f_equal. apply map_ext. intros q. now rewrite app_nil_r.
  - rewrite <- Q, Y. reflexivity.
  - unfold without_last_empty. rewrite rev_unit. destruct y as [|c y].
    + cbn in Q. rewrite rev_involutive. now apply app_inj_tail in Q as [? _].
    + cbn in Q. now rewrite app_nil_r in Q.
Qed.
Print Assumptions C96_multisplit_is_splitlines.
(** lines(s) gives the lines of s.splitlines(), and the same final empty line; and the ends of
    the lines are what s.splitlines(True) has more. *)
Theorem C96_lines_is_splitlines : forall is_bytes start_column s line_number, exists L, lines is_bytes start_column (Text s None) line_number = Ok L /\
  let final := if ends_line (is_linebreak is_bytes) s then [[]] else [] in
  map snd L = split_lines (is_linebreak is_bytes) false [] s ++ final /\ map (fun p => snd p ++ i_end (fst p)) L = split_lines (is_linebreak is_bytes) true [] s ++ final.
Proof.
  intros b sc s n. destruct (C41_lines_of_text b sc s None n I) as (L & l & y & E & S & M & _). exists L. split; auto.
  assert (Sp : splits true (linebreaks_of b) None s l y) by exact S.
  destruct (splits_lines b true _ _ _ _ eq_refl Sp) as [Q1 _], (splits_lines b false _ _ _ _ eq_refl Sp) as [Q2 _]. rewrite (ends_line_y b true _ _ _ _ eq_refl Sp) in *.
  cbv zeta. assert (M1 : map snd L = map fst (l ++ [(y, [])])) by (rewrite <- M, map_map; reflexivity).
  assert (M2 : map (fun p => snd p ++ i_end (fst p)) L = map (fun q => fst q ++ snd q) (l ++ [(y, [])])) by (rewrite <- M, map_map; reflexivity).
  split; (etransitivity; [|symmetry; first [exact Q1|exact Q2]]).
  - rewrite M1, map_app. cbn. f_equal. apply map_ext. intros q. now rewrite app_nil_r.
  - rewrite M2, map_app. cbn. now rewrite app_nil_r.
Qed.
Print Assumptions C96_lines_is_splitlines.
Example C96_witness : split_lines (is_linebreak false) true [] ([97; 13; 10; 13; 98; 133]%N) = [[97; 13; 10]%N; [13%N]; [98; 133]%N] /\ split_lines (is_linebreak true) false [] ([97; 13; 10; 13; 98; 11]%N) = [[97%N]; []; [98; 11]%N] /\
  multisplit ([97; 13; 10; 13; 98; 133]%N) (Some str_linebreaks) KeepFalse (Some (-1)%Z) false true StripFalse = Ok (map Str [[97%N]; []; [98%N]; []]).
Proof. repeat split; vm_compute; reflexivity. Qed.

(** C99.  The documentation's str.split(None, n) and str.rsplit(None, n): "list(multisplit(s, whitespace,
    maxsplit=n, reverse=reverse, strip=PROGRESSIVE))", with an empty string at the end removed -
    for every string, also an empty or blank one, unlike multisplit itself (C66). *)
Lemma ws_last p n s l : ws_split p n s l -> l = [] \/ exists m x, l = m ++ [x] /\ x <> [].
Proof.
  induction 1 as [n a A|a c t A C|n a w r l N A W F R S IH]; auto.
  - right. exists [], (c :: t). split; auto. discriminate.
  - right. destruct IH as [-> |(m & x & -> & X)]; [exists [], w; auto|]. exists (w :: m), x. auto.
Qed.
Lemma ws_keeps p n s l : ws_split p n s l -> without_last_empty l = l.
Proof. intros H. unfold without_last_empty. destruct (ws_last _ _ _ _ H) as [-> |(m & x & -> & X)]; [reflexivity|]. rewrite rev_unit. destruct x; [congruence|reflexivity]. Qed.
Lemma ws_all p n s l : ws_split p n s l -> Forall (fun x : str => x <> []) l.
Proof. induction 1; constructor; auto. discriminate. Qed.
Lemma ws_rkeeps p n s l : ws_rsplit p n s l -> without_last_empty l = l.
Proof.
  intros H. apply ws_all in H. unfold without_last_empty. destruct (rev l) as [|x t] eqn:E; auto. destruct x; auto. exfalso.
  rewrite Forall_forall in H. apply (H []); auto. apply -> in_rev. apply in_map_iff. exists []. split; auto. apply in_rev. assert (Q : In [] (rev l)) by (rewrite E; now left). exact Q.
Qed.
Lemma multistrip_blank s left right : forallb is_space s = true -> left || right = true -> multistrip s str_whitespace left right = Ok [].
Proof.
  intros B LR. pose proof (whitespace_class str_whitespace (or_intror eq_refl)) as C.
  destruct (C36_multistrip_partial s str_whitespace left right valid_none) as (a & r & b & E & Es & Oa & Ob & La & Lb & Na & Nb). { right; left. vm_compute. auto. }
  rewrite E. f_equal. destruct r as [|c r]; auto. exfalso. rewrite Es in B. rewrite !forallb_app in B. apply andb_true_iff in B as [_ B]. apply andb_true_iff in B as [B _].
  destruct left.
  - apply (Na eq_refl). exists [c], r. split; auto. apply C. cbn in B. now apply andb_true_iff in B.
  - cbn in LR. subst right. assert (N : c :: r <> []) by discriminate. destruct (exists_last N) as (r' & d & Q). rewrite Q in *. apply (Nb eq_refl). exists [d], r'. split; auto. apply C.
    rewrite forallb_app in B. apply andb_true_iff in B as [_ B]. cbn in B. now apply andb_true_iff in B.
Qed.
Theorem C99_as_str_split : forall s maxsplit, (-1 <= maxsplit)%Z ->
  let n := if (maxsplit =? -1)%Z then None else Some (Z.to_nat maxsplit) in
  (exists l, multisplit s None KeepFalse (Some maxsplit) false false Progressive = Ok (map Str l) /\ ws_split is_space n s (without_last_empty l)) /\
  (exists l, multisplit s None KeepFalse (Some maxsplit) true false Progressive = Ok (map Str l) /\ ws_rsplit is_space n s (without_last_empty l)).
Proof.
  intros s m Hm n. destruct (forallb is_space s) eqn:B.
  - assert (K : forall reverse, multisplit s None KeepFalse (Some m) reverse false Progressive = Ok (map Str [[]])).
    { intros reverse. unfold multisplit. cbn [is_nil seps_of]. change (is_nil str_whitespace) with false. cbv iota. destruct (m =? -1)%Z; rewrite multistrip_blank by (auto; now destruct reverse); reflexivity. }
    split; exists [[]]; (split; [apply K|]); cbn.
    + now apply ws_none.
    + unfold ws_rsplit. cbn. apply ws_none. now rewrite forallb_rev.
  - assert (NB : not_blank s) by (now apply not_blank_spec). unfold n. destruct (Z.eqb_spec m (-1)) as [-> |Hn].
    + split; (destruct (C66_as_str_split_unlimited_partial s false Progressive (or_intror eq_refl) NB) as (l & E & W & R) || idtac).
      * exists l. split; auto. now rewrite (ws_keeps _ _ _ _ W).
      * destruct (C66_as_str_split_unlimited_partial s true Progressive (or_intror eq_refl) NB) as (l' & E' & W' & R'). exists l'. split; auto. now rewrite (ws_rkeeps _ _ _ _ R').
    + split.
      * destruct (C66_as_str_split_partial s (Z.to_nat m) false NB) as (l & E & W). rewrite Z2Nat.id in E by lia. exists l. split; auto. now rewrite (ws_keeps _ _ _ _ W).
      * destruct (C66_as_str_split_partial s (Z.to_nat m) true NB) as (l & E & W). rewrite Z2Nat.id in E by lia. exists l. split; auto. now rewrite (ws_rkeeps _ _ _ _ W).
Qed.
Print Assumptions C99_as_str_split.
Example C99_witness : multisplit (u "   ") None KeepFalse (Some 1%Z) false false Progressive = Ok (map Str [[]]) /\ without_last_empty [[]] = [] /\
  multisplit (u " a b  c ") None KeepFalse (Some 1%Z) false false Progressive = Ok (map Str [u "a"; u "b  c "]).
Proof. repeat split; vm_compute; reflexivity. Qed.
