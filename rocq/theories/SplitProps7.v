(** multisplit and lines in parts: the property C132. *)
From Verif Require Import SplitModel SplitSpec SplitSpec2 SplitSpec7 SplitProof SplitProof2 SplitProof3 SplitProof7 SplitProps SplitProps2 SplitProps4 RegexProof PyBaseProof PyStrProof.
From Verif Require Import ConstModel ConstSpec ConstProps DelimModel LinesModel LinesSpec LinesProps.

(** C132.  After multisplit with a limit n, what is left can be split on, with a limit m or without one: the result is that of the limit n+m. *)
Theorem C132_continue : forall s o (separate : bool) n m, valid o ->
  exists A rest B, multisplit s o Alternating (maxsplit_of (Some n)) false separate StripFalse = Ok (map Str (A ++ [rest])) /\
    multisplit rest o Alternating (maxsplit_of m) false separate StripFalse = Ok (map Str B) /\
    multisplit s o Alternating (maxsplit_of (option_map (plus n) m)) false separate StripFalse = Ok (map Str (A ++ B)).
Proof.
  intros s o separate n m V. assert (LM : forall k, limit_of (maxsplit_of k) = k).
  { intros [k|]; [|reflexivity]. unfold limit_of, maxsplit_of. destruct (Z.eqb_spec (Z.of_nat k) (-1)); [lia|]. now rewrite Nat2Z.id. }
  destruct (multisplit_all s o (maxsplit_of (Some n)) false separate V) as (l & y & S & E). rewrite LM in S. cbn in S.
  destruct (multisplit_all y o (maxsplit_of m) false separate V) as (l' & y' & S' & E'). rewrite LM in S'. cbn in S'.
  destruct (multisplit_all s o (maxsplit_of (option_map (plus n) m)) false separate V) as (l2 & y2 & S2 & E2). rewrite LM in S2. cbn in S2.
  pose proof (splits_continue _ _ _ _ _ _ S _ _ _ S') as S3. destruct (proj1 (C32_split_is_unique _ _ _ _ _ _ _ _ (proj2 V)) S2 S3) as [-> ->].
  exists (flat_map (fun p : str * str => [fst p; snd p]) l), y, (flat_map (fun p : str * str => [fst p; snd p]) l' ++ [y']).
  rewrite E, E', E2. cbn [present]. unfold alternating. rewrite flat_map_app, <- app_assoc. repeat split.
Qed.
Print Assumptions C132_continue.
Example C132_continue_witness : multisplit (u "a b c d") None Alternating (Some 1%Z) false false StripFalse = Ok (map Str ([u "a"; u " "] ++ [u "b c d"])) /\
  multisplit (u "b c d") None Alternating (Some 1%Z) false false StripFalse = Ok (map Str [u "b"; u " "; u "c d"]) /\
  multisplit (u "a b c d") None Alternating (Some 2%Z) false false StripFalse = Ok (map Str [u "a"; u " "; u "b"; u " "; u "c d"]).
Proof. repeat split; vm_compute; reflexivity. Qed.

(** A text can be split in two parts if no separator lies across the cut. *)
Theorem C132_parts : forall s1 s2 o (separate : bool), valid o -> ~ across (seps_of o) s1 s2 ->
  exists A x y B, multisplit s1 o Alternating (Some (-1)%Z) false separate StripFalse = Ok (map Str (A ++ [x])) /\
    multisplit s2 o Alternating (Some (-1)%Z) false separate StripFalse = Ok (map Str (y :: B)) /\
    multisplit (s1 ++ s2) o Alternating (Some (-1)%Z) false separate StripFalse = Ok (map Str (put_together separate A x y B)).
Proof.
  intros s1 s2 o separate V H.
  destruct (multisplit_all s1 o (Some (-1)%Z) false separate V) as (l & x & S & E). destruct (multisplit_all s2 o (Some (-1)%Z) false separate V) as (l' & y' & S' & E').
  destruct (multisplit_all (s1 ++ s2) o (Some (-1)%Z) false separate V) as (l2 & y2 & S2 & E2). cbn in S, S', S2.
  pose proof (splits_parts _ (proj2 V) _ _ _ _ _ S eq_refl _ _ _ S' H) as S3. destruct (proj1 (C32_split_is_unique _ _ _ _ _ _ _ _ (proj2 V)) S2 S3) as [-> ->].
  exists (flat_map (fun p : str * str => [fst p; snd p]) l), x, (match l' with [] => y' | (z, _) :: _ => z end), (match l' with [] => [] | (_, w) :: t => w :: flat_map (fun p : str * str => [fst p; snd p]) t ++ [y'] end).
  rewrite E, E', E2. cbn [present]. unfold alternating. split; [reflexivity|]. split; [destruct l' as [|[z w] t]; reflexivity|]. do 2 f_equal.
  destruct l' as [|[z w] t]; cbn [cuts_joined last_joined].
  - unfold put_together. rewrite app_nil_r. destruct separate, x, y', (rev (flat_map (fun p : str * str => [fst p; snd p]) l)); reflexivity.
  - assert (G : flat_map (fun p : str * str => [fst p; snd p]) (l ++ (x ++ z, w) :: t) ++ [y'] =
      flat_map (fun p : str * str => [fst p; snd p]) l ++ [x ++ z] ++ w :: flat_map (fun p : str * str => [fst p; snd p]) t ++ [y']).
    { rewrite flat_map_app. cbn. now rewrite <- app_assoc. }
    unfold put_together. destruct separate; [exact G|]. destruct x; [|exact G]. destruct z; [|destruct (rev (flat_map (fun p : str * str => [fst p; snd p]) l)), (rev l) as [|[? ?] ?]; exact G].
    destruct l as [|p0 l] using rev_ind; [reflexivity|]. clear IHl G. destruct p0 as [a v]. rewrite rev_app_distr. cbn [rev app]. rewrite rev_involutive.
    rewrite !flat_map_app. cbn [flat_map app fst snd].
    match goal with |- _ = match ?r with [] => _ | _ :: _ => _ end => replace r with (v :: a :: rev (flat_map (fun p : str * str => [fst p; snd p]) l)) by (symmetry; apply (rev_app_distr (A := str))) end.
    cbn [rev app]. rewrite (rev_involutive (A := str)).
    now rewrite <- !app_assoc.
Qed.
Print Assumptions C132_parts.
(** The condition is needed. *)
Theorem C132_across_refuted :
  multisplit (u "a" ++ [13%N]) (Some str_linebreaks) KeepTrue (Some (-1)%Z) false true StripFalse = Ok (map Str [u "a" ++ [13%N]; []]) /\
  multisplit ([10%N] ++ u "b") (Some str_linebreaks) KeepTrue (Some (-1)%Z) false true StripFalse = Ok (map Str [[10%N]; u "b"]) /\
  multisplit (u "a" ++ [13%N; 10%N] ++ u "b") (Some str_linebreaks) KeepTrue (Some (-1)%Z) false true StripFalse = Ok (map Str [u "a" ++ [13%N; 10%N]; u "b"]).
Proof. repeat split; vm_compute; reflexivity. Qed.

(** The default separators can only be cut through between '\r' and '\n', and separators of one character not at all. *)
Theorem C132_where_to_cut :
  (forall seps s1 s2, Forall (fun w : str => length w <= 1) seps -> ~ across seps s1 s2) /\
  (forall (is_bytes : bool) s1 s2, across (if is_bytes then bytes_linebreaks else str_linebreaks) s1 s2 <-> (exists p, s1 = p ++ [13%N]) /\ (exists q, s2 = [10%N] ++ q)) /\
  (forall (is_bytes : bool) s1 s2, across (if is_bytes then bytes_whitespace else str_whitespace) s1 s2 <-> (exists p, s1 = p ++ [13%N]) /\ (exists q, s2 = [10%N] ++ q)).
Proof.
  assert (G : forall l P s1 s2, exactly l P true -> across l s1 s2 <-> (exists p, s1 = p ++ [13%N]) /\ (exists q, s2 = [10%N] ++ q)).
  { intros l P s1 s2 [_ X]. split.
    - intros (p & w1 & w2 & q & N1 & N2 & I & -> & ->). apply X in I as [(c & E & _)|[_ E]].
      + destruct w1 as [|a w1]; [now contradiction N1 || now contradiction N2|]. destruct w2 as [|b w2]; [now contradiction N1 || now contradiction N2|]. destruct w1; discriminate.
      + unfold crlf in E. destruct w1 as [|a w1]; [now contradiction N1 || now contradiction N2|]. injection E as -> E. destruct w1 as [|b w1].
        * cbn in E. subst w2. split; eexists; reflexivity.
        * injection E as -> E. apply app_eq_nil in E as [_ E]. now contradiction N2.
    - intros [[p ->] [q ->]]. exists p, [13%N], [10%N], q. repeat split; try discriminate. apply X. auto. }
  split; [|split].
  - intros seps s1 s2 F (p & w1 & w2 & q & N1 & N2 & I & _). rewrite Forall_forall in F. apply F in I. rewrite app_length in I. destruct w1, w2; cbn in I; try congruence; lia.
  - intros b s1 s2. destruct (C95_linebreaks true) as (A & B & C & D), b; [exact (G _ _ _ _ D)|exact (G _ _ _ _ A)].
  - intros b s1 s2. destruct (C95_whitespace true) as (A & B & C & D), b; [exact (G _ _ _ _ D)|exact (G _ _ _ _ A)].
Qed.
Print Assumptions C132_where_to_cut.
Example C132_parts_witness : ~ across str_whitespace (u "a b ") (u " c") /\
  multisplit (u "a b ") None Alternating (Some (-1)%Z) false false StripFalse = Ok (map Str ([u "a"; u " "; u "b"; u " "] ++ [[]])) /\
  multisplit (u " c") None Alternating (Some (-1)%Z) false false StripFalse = Ok (map Str ([] :: [u " "; u "c"])) /\
  multisplit (u "a b  c") None Alternating (Some (-1)%Z) false false StripFalse = Ok (map Str [u "a"; u " "; u "b"; u "  "; u "c"]).
Proof.
  split; [|repeat split; vm_compute; reflexivity]. intros H. apply (proj2 (proj2 C132_where_to_cut) false) in H as [_ [q E]]. discriminate E.
Qed.

(** The lines of a text in two parts: the last line of the first part and the first line of the second are one line. *)
Theorem C132_lines : forall is_bytes start_column s1 s2 separators n, lines_args_ok separators -> ~ across (line_separators is_bytes separators) s1 s2 ->
  exists L1 p q L2 joined, lines is_bytes start_column (Text s1 separators) n = Ok (L1 ++ [p]) /\
    lines is_bytes start_column (Text s2 separators) (n + Z.of_nat (length L1)) = Ok (q :: L2) /\
    lines is_bytes start_column (Text (s1 ++ s2) separators) n = Ok (L1 ++ joined :: L2) /\
    snd joined = snd p ++ snd q /\ i_line (fst joined) = i_line (fst p) ++ i_line (fst q) /\ i_end (fst joined) = i_end (fst q) /\ i_number (fst joined) = i_number (fst p) /\
    (snd p = [] -> joined = q).
Proof.
  intros is_bytes sc s1 s2 o n OK H. pose proof (line_separators_ok is_bytes o OK) as V.
  assert (LN : forall s, exists l y, splits true (line_separators is_bytes o) None s l y /\ forall n, lines is_bytes sc (Text s o) n = Ok (number_lines sc n (l ++ [(y, [])]))).
  { intros s. destruct (C32_multisplit_is_the_split s (Some (line_separators is_bytes o)) AsPairs (Some (-1)%Z) false true V) as (l & y & Sp & E). cbn in Sp. exists l, y. split; [exact Sp|]. intros k.
    unfold lines. change (match o with None | Some [] => linebreaks_of is_bytes | Some l0 => l0 end) with (line_separators is_bytes o). rewrite E.
    f_equal. f_equal. change (present AsPairs l y) with (map (fun p : str * str => Two (fst p) (snd p)) l ++ [Two y []]). rewrite flat_map_app. cbn [flat_map app]. f_equal.
    clear. induction l as [|[a b] l IH]; cbn; auto. now rewrite IH. }
  destruct (LN s1) as (l & x & S & E), (LN s2) as (l' & y' & S' & E'), (LN (s1 ++ s2)) as (l2 & y2 & S2 & E2).
  pose proof (splits_parts _ (proj2 V) _ _ _ _ _ S eq_refl _ _ _ S' H) as S3. destruct (proj1 (C32_split_is_unique _ _ _ _ _ _ _ _ (proj2 V)) S2 S3) as [-> ->]. clear S S' S2 S3 LN.
  assert (NA : forall a b k, number_lines sc k (a ++ b) = number_lines sc k a ++ number_lines sc (k + Z.of_nat (length a)) b).
  { induction a as [|c a IH]; intros b k; [cbn; now rewrite Z.add_0_r|]. cbn [app number_lines length]. rewrite IH. cbn [app]. do 3 f_equal. lia. }
  assert (NL : forall a k, length (number_lines sc k a) = length a) by (induction a; intros; cbn; congruence).
  exists (number_lines sc n l), (new_info sc (n + Z.of_nat (length l)) (x, [])).
  assert (W : cuts_joined true l x l' ++ [(last_joined x l' y', [])] = l ++ (match l' with [] => (x ++ y', []) | (z, w) :: _ => (x ++ z, w) end) :: match l' with [] => [] | _ :: t => t ++ [(y', [])] end).
  { destruct l' as [|[z w] t]; [reflexivity|]. cbn. now rewrite <- app_assoc. }
  assert (W' : l' ++ [(y', [])] = (match l' with [] => (y', []) | p :: _ => p end) :: match l' with [] => [] | _ :: t => t ++ [(y', [])] end) by (destruct l'; reflexivity).
  rewrite NL, E, E', E2, W, W', !NA. cbn [number_lines]. do 3 eexists. split; [reflexivity|]. split; [reflexivity|]. split; [reflexivity|].
  destruct l' as [|[z w] t]; cbn; rewrite ?app_nil_r; repeat split; try (now intros ->).
  destruct w; cbn; [reflexivity|]. now rewrite <- app_assoc.
Qed.
Print Assumptions C132_lines.
(** so, after a line break, the next lines are those of the rest of the text *)
Corollary C132_lines_after_a_break : forall is_bytes start_column s1 s2 separators n L1 p, lines_args_ok separators -> ~ across (line_separators is_bytes separators) s1 s2 ->
  lines is_bytes start_column (Text s1 separators) n = Ok (L1 ++ [p]) -> snd p = [] ->
  exists L2, lines is_bytes start_column (Text s2 separators) (n + Z.of_nat (length L1)) = Ok L2 /\ lines is_bytes start_column (Text (s1 ++ s2) separators) n = Ok (L1 ++ L2).
Proof.
  intros is_bytes sc s1 s2 o n L1 p OK H E N. destruct (C132_lines is_bytes sc s1 s2 o n OK H) as (L1' & p' & q & L2 & j & E1 & E2 & E3 & _ & _ & _ & _ & J).
  rewrite E in E1. injection E1 as E1. apply app_inj_tail in E1 as [<- <-]. rewrite (J N) in E3. exists (q :: L2). auto.
Qed.
Print Assumptions C132_lines_after_a_break.
Example C132_lines_witness : rmap (map (fun p => (i_number (fst p), snd p))) (lines false 1 (Text (u "a" ++ [10%N]) None) 1) = Ok [(1%Z, u "a"); (2%Z, [])] /\
  rmap (map (fun p => (i_number (fst p), snd p))) (lines false 1 (Text (u "a" ++ [10%N] ++ u "b") None) 1) = Ok [(1%Z, u "a"); (2%Z, u "b")].
Proof. split; reflexivity. Qed.
