(** multisplit from the left and from the right: the property C131, and C96 from the right. *)
From Verif Require Import SplitModel SplitSpec SplitSpec2 SplitSpec3 SplitSpec6 SplitProof SplitProof2 SplitProof3 SplitProof6 SplitProps SplitProps2 SplitProps4 RegexProof PyBaseProof PyStrProof.
From Verif Require Import ConstModel ConstSpec ConstProps DelimModel LinesModel LinesSpec LinesProps.

(** C131.  If no two separators can overlap then, without a limit, reverse makes no difference: whatever keep, separate and strip are.
    (PROGRESSIVE with maxsplit=None strips only one end, see C65.) *)
Theorem C131_direction : forall s o keep maxsplit (separate : bool) strip, valid o -> no_overlap (seps_of o) ->
  maxsplit = Some (-1)%Z \/ maxsplit = None /\ strip <> Progressive ->
  multisplit s o keep maxsplit true separate strip = multisplit s o keep maxsplit false separate strip.
Proof.
  intros s o keep maxsplit separate strip V NO M.
  assert (P : forall s, multisplit s o keep maxsplit true separate StripFalse = multisplit s o keep maxsplit false separate StripFalse).
  { clear s. intros s. destruct (multisplit_all s o maxsplit false separate V) as (l & y & S & E). destruct (multisplit_all s o maxsplit true separate V) as (l' & y' & S' & E').
    rewrite E, E'. assert (L : limit_of maxsplit = None) by (destruct M as [->|[-> _]]; reflexivity). rewrite L in S, S'. cbn in S, S'. destruct V as [_ V2].
    pose proof (left_is_right _ V2 NO _ _ _ _ _ S eq_refl) as R. destruct (rsplits_fun _ _ _ _ _ _ _ _ V2 R S') as [-> ->] || destruct (proj2 (C32_split_is_unique _ _ _ _ _ _ _ _ V2) R S') as [-> ->]. reflexivity. }
  destruct strip; [apply P| | | |].
  all: match goal with |- multisplit _ _ _ _ _ _ ?st = _ =>
    destruct (C64_strip_then_split s o keep maxsplit true separate st V) as (s1 & E1 & ->); [tauto || (right; right; right; split; [reflexivity|]; destruct M as [|[_ X]]; [assumption|congruence])|];
    destruct (C64_strip_then_split s o keep maxsplit false separate st V) as (s2 & E2 & ->); [tauto || (right; right; right; split; [reflexivity|]; destruct M as [|[_ X]]; [assumption|congruence])|];
    rewrite E1 in E2; injection E2 as <-; apply P end.
Qed.
Print Assumptions C131_direction.
Example C131_direction_witness : valid (Some [u "<>"; u "--"; u "<"]) /\
  multisplit (u "a<>b<-c") (Some [u "<>"; u "<"]) Alternating (Some (-1)%Z) true true StripFalse = Ok (map Str [u "a"; u "<>"; u "b"; u "<"; u "-c"]).
Proof. split; [split; [discriminate|repeat constructor; discriminate]|vm_compute; reflexivity]. Qed.

(** Separators of one character cannot overlap, whatever they are; nor can the tuples of white space and line breaks that come with big. *)
Theorem C131_single_characters : forall seps, Forall (fun w : str => length w <= 1) seps -> no_overlap seps.
Proof.
  intros seps F x v y X V _ I1 _. rewrite Forall_forall in F. apply F in I1. rewrite app_length in I1. destruct x, v; cbn in *; try congruence; lia.
Qed.
Lemma exactly_no_overlap l p b : exactly l p b -> no_overlap l.
Proof.
  intros [_ H] x v y X V Y I1 I2. apply H in I1 as [(c & E & _)|[_ E1]]; [destruct x, v; cbn in *; try congruence; injection E as -> E; apply app_eq_nil in E as [_ E]; discriminate|].
  apply H in I2 as [(c & E & _)|[_ E2]]; [destruct v, y; cbn in *; try congruence; injection E as -> E; apply app_eq_nil in E as [_ E]; discriminate|].
  unfold crlf in *. destruct x as [|a x]; [congruence|]. cbn in E1. injection E1 as -> E1. destruct x as [|a x]; cbn in E1.
  - subst v. discriminate E2.
  - injection E1 as -> E1. destruct x, v; cbn in E1; congruence.
Qed.
Theorem C131_builtin : Forall no_overlap
  [str_whitespace; str_whitespace_without_crlf; unicode_whitespace; unicode_whitespace_without_crlf; ascii_whitespace; ascii_whitespace_without_crlf; bytes_whitespace; bytes_whitespace_without_crlf;
   str_linebreaks; str_linebreaks_without_crlf; unicode_linebreaks; unicode_linebreaks_without_crlf; ascii_linebreaks; ascii_linebreaks_without_crlf; bytes_linebreaks; bytes_linebreaks_without_crlf].
Proof.
  destruct (C95_whitespace true) as (A1 & A2 & A3 & A4), (C95_whitespace false) as (B1 & B2 & B3 & B4), (C95_linebreaks true) as (D1 & D2 & D3 & D4), (C95_linebreaks false) as (E1 & E2 & E3 & E4).
  repeat apply Forall_cons; [exact (exactly_no_overlap _ _ _ A1)|exact (exactly_no_overlap _ _ _ B1)|exact (exactly_no_overlap _ _ _ A2)|exact (exactly_no_overlap _ _ _ B2)|exact (exactly_no_overlap _ _ _ A3)|
    exact (exactly_no_overlap _ _ _ B3)|exact (exactly_no_overlap _ _ _ A4)|exact (exactly_no_overlap _ _ _ B4)|exact (exactly_no_overlap _ _ _ D1)|exact (exactly_no_overlap _ _ _ E1)|exact (exactly_no_overlap _ _ _ D2)|
    exact (exactly_no_overlap _ _ _ E2)|exact (exactly_no_overlap _ _ _ D3)|exact (exactly_no_overlap _ _ _ E3)|exact (exactly_no_overlap _ _ _ D4)|exact (exactly_no_overlap _ _ _ E4)|apply Forall_nil].
Qed.
Print Assumptions C131_builtin.

(** For one separator the condition is exact: "multisplit(s, [sep], reverse=True)" is "multisplit(s, [sep])" for every s exactly if sep cannot overlap itself. *)
Theorem C131_one_separator : forall sep, sep <> [] ->
  ((forall s, multisplit s (Some [sep]) Alternating (Some (-1)%Z) true true StripFalse = multisplit s (Some [sep]) Alternating (Some (-1)%Z) false true StripFalse) <->
   no_overlap [sep]).
Proof.
  intros sep NE. assert (V : valid (Some [sep])) by (split; [discriminate|repeat constructor; auto]). pose proof (proj2 V) as V2. cbn [seps_of] in V2.
  split; [|intros NO s; apply C131_direction; auto].
  intros H x v y X Vn Y [E1|[]] [E2|[]]. specialize (H (x ++ v ++ y)).
  assert (L : length x = length y) by (apply (f_equal (@length _)) in E1, E2; rewrite app_length in *; lia).
  assert (Free : forall z : str, length z = length y -> sep_free [sep] z).
  { intros z Lz i (w & t & [<-|[]] & E). apply (f_equal (@length _)) in E. rewrite skipn_length, app_length in E. apply (f_equal (@length _)) in E1. rewrite app_length in E1.
    assert (0 < length v) by (destruct v; cbn; [congruence|lia]). unfold str in *. lia. }
  destruct (multisplit_all (x ++ v ++ y) (Some [sep]) (Some (-1)%Z) false true V) as (l & z & S & E). destruct (multisplit_all (x ++ v ++ y) (Some [sep]) (Some (-1)%Z) true true V) as (l' & z' & S' & E').
  rewrite E, E' in H. cbn in S, S'. change (@None nat) with (@None nat) in S.
  assert (F : splits true [sep] None (x ++ v ++ y) [([], sep)] y).
  { replace (x ++ v ++ y) with ([] ++ sep ++ y) by (rewrite E1; cbn; now rewrite <- app_assoc). apply split_cut; [discriminate|cbn; lia| |apply split_none; auto].
    split; [now left|]. intros w' t' [<-|[]] _. reflexivity. }
  assert (R : rsplits true [sep] None (x ++ v ++ y) [(x, sep)] []).
  { replace (x ++ v ++ y) with (x ++ sep ++ []) by (rewrite app_nil_r; now rewrite E2). apply (rsplit_cut true [sep] None [] sep x x []); [discriminate|cbn; lia| |apply rsplit_none; auto].
    split; [now left|]. intros w' t' [<-|[]] _. reflexivity. }
  destruct (proj1 (C32_split_is_unique true [sep] None _ _ _ _ _ V2) S F) as [-> ->]. destruct (proj2 (C32_split_is_unique true [sep] None _ _ _ _ _ V2) S' R) as [-> ->].
  injection H as H _. cbn in H. congruence.
Qed.
Print Assumptions C131_one_separator.
Example C131_one_separator_witness : no_overlap [u "ab"] /\ ~ no_overlap [u "aa"] /\ ~ no_overlap [u "aba"].
Proof.
  split; [|split].
  - intros x v y X V Y [E1|[]] [E2|[]]. destruct x as [|a [|b x]], v as [|c [|d v]], y; cbn in *; try congruence; try (destruct x; discriminate).
  - intros H. apply (H (u "a") (u "a") (u "a")); try discriminate; now left.
  - intros H. apply (H (u "ab") (u "a") (u "ba")); try discriminate; now left.
Qed.
(** In general reverse makes a difference. *)
Theorem C131_overlap_refuted :
  multisplit (u "xabcy") (Some [u "ab"; u "bc"]) KeepFalse (Some (-1)%Z) false true StripFalse = Ok (map Str [u "x"; u "cy"]) /\
  multisplit (u "xabcy") (Some [u "ab"; u "bc"]) KeepFalse (Some (-1)%Z) true true StripFalse = Ok (map Str [u "xa"; u "y"]).
Proof. split; vm_compute; reflexivity. Qed.

(** With a limit: reverse=True, maxsplit=n cuts at the last n of the places where multisplit without reverse cuts. *)
Theorem C131_last_cuts : forall s o (separate : bool) n, valid o -> no_overlap (seps_of o) ->
  exists A, multisplit s o Alternating (Some (-1)%Z) false separate StripFalse = Ok (map Str A) /\
    multisplit s o Alternating (Some (Z.of_nat n)) false separate StripFalse = Ok (map Str (if 2 * n <? length A then firstn (2 * n) A ++ [concat (skipn (2 * n) A)] else A)) /\
    multisplit s o Alternating (Some (Z.of_nat n)) true separate StripFalse =
      Ok (map Str (if 2 * n <? length A then concat (firstn (length A - 2 * n) A) :: skipn (length A - 2 * n) A else A)).
Proof.
  intros s o separate n V NO. destruct (C33_maxsplit s o false separate n V) as (A & E & F). destruct (C33_maxsplit s o true separate n V) as (B & E' & F').
  rewrite C131_direction in E' by auto. rewrite E in E'. injection E' as E'. assert (B = A) as -> by (rewrite <- (strs_Str A), <- (strs_Str B); now f_equal).
  exists A. auto.
Qed.
Print Assumptions C131_last_cuts.
Example C131_last_cuts_witness : multisplit (u "a b c d") None Alternating (Some 2%Z) true false StripFalse = Ok (map Str [u "a b"; u " "; u "c"; u " "; u "d"]).
Proof. vm_compute. reflexivity. Qed.

(** C96 from the right: the same lines. *)
Theorem C96_reversed : forall (is_bytes keepends : bool) s, exists l,
  multisplit s (Some (if is_bytes then bytes_linebreaks else str_linebreaks)) (if keepends then KeepTrue else KeepFalse) (Some (-1)%Z) true true StripFalse = Ok (map Str l) /\
  l = split_lines (is_linebreak is_bytes) keepends [] s ++ (if ends_line (is_linebreak is_bytes) s then [[]] else []) /\
  without_last_empty l = split_lines (is_linebreak is_bytes) keepends [] s.
Proof.
  intros b k s. destruct (C96_multisplit_is_splitlines b k s) as (l & E & H). exists l. split; auto. rewrite <- E. pose proof C131_builtin as B. rewrite Forall_forall in B.
  apply C131_direction; auto; cbn [seps_of]; [destruct b; [apply (valid_linebreaks true)|apply (valid_linebreaks false)]|apply B; destruct b; cbn; tauto].
Qed.
Print Assumptions C96_reversed.
Example C96_reversed_witness :
  multisplit (u "a" ++ [13; 10]%N ++ u "b" ++ [10%N]) (Some str_linebreaks) KeepTrue (Some (-1)%Z) true true StripFalse =
    Ok (map Str [u "a" ++ [13; 10]%N; u "b" ++ [10%N]; []]).
Proof. vm_compute. reflexivity. Qed.
