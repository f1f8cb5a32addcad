(** C56, exactly: lines_strip with any separators. *)
From Verif Require Import LinesModel LinesSpec LinesSpec2 LinesProof SplitSpec SplitProof SplitProof2 SplitProof3 SplitProps PyStrProof RegexProof PyBaseProof DelimProof LinesProps LinesProps2.

Lemma partition_least w s x y : (exists a b, s = a ++ w ++ b) -> partition w s = (x, y) -> forall a b, s = a ++ w ++ b -> length x <= length a.
Proof.
  intros _. revert x y. induction s as [|c s IH]; intros x y E a b C; cbn [partition] in E.
  - destruct (starts_with w []); injection E as <- <-; cbn; lia.
  - destruct (starts_with w (c :: s)) eqn:S; [injection E as <- <-; cbn; lia|].
    destruct (partition w s) as [x' y'] eqn:P. injection E as <- <-. destruct a as [|d a].
    + cbn in C. assert (starts_with w (c :: s) = true) by (apply starts_with_iff; eauto). congruence.
    + cbn in C. injection C as -> C. specialize (IH _ _ eq_refl _ _ C). cbn. lia.
Qed.

(** For any separators: the line yielded is what multistrip returns; unless that is empty, what goes
    to leading is what precedes its first occurrence in the line, and what goes to trailing is
    what follows it. *)
Theorem C56_strip_exact : forall is_bytes start_column tab_width seps l up, valid (Some seps) -> Forall has_its_end l ->
  exists l', modify is_bytes start_column tab_width (Strip (Some seps)) (l, up) = Ok (l', up) /\
    Forall2 (fun p q => multistrip (snd p) seps true true = Ok (snd q) /\
      exists a b, taken_off a (snd q) b p q /\
        (snd q <> [] -> (forall a' b', snd p = a' ++ snd q ++ b' -> length a <= length a') /\
           i_column (fst q) = (i_column (fst p) + Z.of_nat (length (expandtabs tab_width a)))%Z)) l l'.
Proof.
  intros is_bytes start_column tab_width seps l up V W. rewrite Forall_forall in W.
  edestruct (for_each_all (strip_line is_bytes tab_width (Some seps))) as (l' & E & F); [|exists l'; cbn [modify]; rewrite E; split; [reflexivity|exact F]].
  intros [i line] I. specialize (W _ I). unfold strip_line. destruct (multistrip_ok line seps true true V) as [r M]. cbn [snd]. pose proof (multistrip_cases line seps true true) as C. rewrite M in C |- *. destruct C as (a & b & E & _).
  destruct (is_nil line) eqn:NL.
  - apply is_nil_iff in NL. rewrite NL in *. symmetry in E. apply app_eq_nil in E. destruct E as [-> E]. apply app_eq_nil in E. destruct E as [-> ->].
    eexists. split; [reflexivity|]. split; auto. exists [], []. split; [apply (taken_none (i, []))|]. cbn. congruence.
  - apply is_nil_false in NL. destruct (is_nil r) eqn:Nr.
    + apply is_nil_iff in Nr. subst r. destruct (clip_both_taken tab_width i [] [] line W (or_intror eq_refl) NL) as (q & Eq & T & _). cbn [app] in Eq. rewrite Eq. exists q. split; auto.
      assert (snd q = []) as -> by apply T. split; auto. exists [], line. split; [exact T|congruence].
    + apply is_nil_false in Nr. destruct (partition r line) as [x y] eqn:P.
      pose proof (partition_least r line x y ltac:(eauto) P) as LE. apply partition_spec in P; [|eauto]. rewrite P in W, NL, M, LE |- *.
      destruct (clip_both_taken tab_width i x r y W (or_introl Nr) NL) as (q & -> & T & C). exists q. split; auto. assert (snd q = r) as -> by apply T.
      split; [reflexivity|]. exists x, y. split; [exact T|]. intros _. split; [exact LE|]. rewrite (C Nr). cbn [fst]. f_equal.
      destruct x; reflexivity.
Qed.
Print Assumptions C56_strip_exact.
(** "abb" stripped of "ab" is "b", whose first occurrence is after "a" *)
Example C56_exact_nonvacuous : exists l', modify false 1 8 (Strip (Some [u "ab"])) ([new_info 1 7 (u "abb", [])], None) = Ok (l', None) /\ has_its_end (new_info 1 7 (u "abb", [])) /\
  map (fun q => (i_leading (fst q), snd q, i_trailing (fst q))) l' = [(u "a", u "b", u "b")].
Proof. eexists. split; [vm_compute; reflexivity|]. split; [exists (u "abb"); reflexivity|reflexivity]. Qed.
