(** Property C123: lines modifiers are lazy. *)
From Verif Require Import PyStrProof DelimModel LinesModel LazyModel LazySpec LazyProof.

Section Props.
  Context (is_bytes : bool) (start_column tab_width : Z).
  Notation pipeline := (pipeline is_bytes start_column tab_width).
  Notation calls := (calls is_bytes).
  Notation next := (next is_bytes start_column tab_width).
  Notation asked := (asked is_bytes start_column tab_width).

  (** Calling the modifiers raises what [pipeline] says, without reading anything ... *)
  Theorem C123_calls ms li : match calls ms [] with Err e => pipeline ms li = Err e | Ok gs => exists r, pipeline ms li = Ok r end.
  Proof. pose proof (calls_total is_bytes start_column tab_width ms [] li) as T. cbn [total] in T. destruct (calls ms []); eauto. Qed.

  Fixpoint script (n : nat) (ys : list pair) (e : option exn) : list event :=
    match n, ys with
    | O, _ => []
    | S n, p :: ys => Yield p :: script n ys e
    | S n, [] => (match e with Some e => Raise e | None => Stop end) :: script n [] None
    end.
  Lemma script_firstn n : forall m ys e, n <= m -> firstn n (map Yield ys ++ match e with Some e => [Raise e] | None => [] end ++ repeat Stop m) = script n ys e.
  Proof.
    induction n as [|n IH]; intros m ys e L; [reflexivity|]. destruct ys as [|p ys]; cbn [map app firstn script].
    - destruct e as [e|]; cbn [app firstn]; f_equal.
      + exact (IH m [] None ltac:(lia)).
      + destruct m as [|m]; [lia|]. cbn [repeat firstn]. f_equal. exact (IH m [] None ltac:(lia)).
    - f_equal. apply IH. lia.
  Qed.
  (** ... and asking for one line after the other gives exactly the lines LinesModel.v says the chain of modifiers yields, then its exception,
      and then StopIteration for ever.  Every next() comes back. *)
  Theorem C123_generators ms gs l up ys e evs gs' k : calls ms [] = Ok gs -> pipeline ms (l, up) = Ok (ys, e) -> asked (finite l up) gs 0 evs gs' k ->
    evs = firstn (length evs) (map Yield ys ++ match e with Some e => [Raise e] | None => [] end ++ repeat Stop (length evs)) /\
    exists fuel r, next (finite l up) fuel gs' k = Some r.
  Proof.
    intros C P A. pose proof (calls_total is_bytes start_column tab_width ms [] (l, up)) as T. cbn [total] in T. rewrite C, P in T. injection T as T.
    split; [|eapply (next_ends is_bytes start_column tab_width (l, up)); reflexivity]. rewrite script_firstn by lia.
    enough (G : forall n, script (length evs + n) ys e = evs ++ script n (fst (total is_bytes start_column tab_width gs' (rest (l, up) k))) (snd (total is_bytes start_column tab_width gs' (rest (l, up) k)))).
    { specialize (G 0). rewrite Nat.add_0_r in G. rewrite G. now rewrite app_nil_r. }
    remember 0 as k0 eqn:K0. induction A as [gs k|gs k fuel ev gs1 k1 evs gs2 k2 A IH N].
    - intros n. subst k. change (rest (l, up) 0) with (l, up). rewrite <- T. reflexivity.
    - specialize (IH C K0 T). intros n. rewrite app_length. cbn [length]. replace (length evs + 1 + n) with (length evs + S n) by lia. rewrite IH, <- app_assoc. f_equal.
      pose proof (next_total is_bytes start_column tab_width (l, up) _ _ _ _ _ _ N) as X. destruct ev as [p| |e']; [rewrite X|destruct X as (X & Y); rewrite X, Y|destruct X as (X & Y); rewrite X, Y]; reflexivity.
  Qed.

  Lemma asked_pushd line gs k0 evs gs' k : asked (endless line) gs k0 evs gs' k -> k0 = 0 -> forall ys, evs = map Yield ys ->
    forall l2, pushd is_bytes start_column tab_width gs (map line (seq 0 k) ++ l2) = (ys ++ fst (pushd is_bytes start_column tab_width gs' l2), snd (pushd is_bytes start_column tab_width gs' l2)).
  Proof.
    induction 1 as [gs k|gs k fuel ev gs1 k1 evs gs2 k2 A IH N]; intros K ys E l2.
    - subst k. destruct ys; [|discriminate]. cbn [seq map app]. now destruct (pushd _ _ _ _ _).
    - destruct (next_pushd is_bytes start_column tab_width line _ _ _ _ _ _ N) as (L & P & _).
      destruct (@exists_last _ ys) as (ys0 & p & ->); [intros ->; destruct evs; discriminate|].
      rewrite map_app in E. cbn [map] in E. apply app_inj_tail in E as (E & ->).
      replace k2 with (k1 + (k2 - k1)) at 1 by lia. rewrite seq_app, map_app, <- app_assoc. rewrite (IH K ys0 E). cbn [Nat.add]. unfold part in P. rewrite (P l2). cbn [fst snd].
      now rewrite <- app_assoc.
  Qed.

  (** On a source without end: what has been yielded so far is right whatever follows, ... *)
  Theorem C123_right_so_far ms gs line ys gs' k : calls ms [] = Ok gs -> asked (endless line) gs 0 (map Yield ys) gs' k ->
    forall l up, exists zs e, pipeline ms (map line (seq 0 k) ++ l, up) = Ok (ys ++ zs, e).
  Proof.
    intros C A l up. pose proof (asked_pushd _ _ _ _ _ _ A eq_refl ys eq_refl []) as P. rewrite app_nil_r in P.
    pose proof (calls_total is_bytes start_column tab_width ms [] (map line (seq 0 k) ++ l, up)) as T. cbn [total] in T. rewrite C in T. rewrite T.
    pose proof (pushd_total is_bytes start_column tab_width gs (map line (seq 0 k)) l up) as Q. rewrite P in Q.
    destruct (pushd _ _ _ gs' []) as [xs r]. cbn [fst snd] in Q. destruct r as [[p| |e]|]; [destruct Q| | |].
    - rewrite Q. eauto.
    - rewrite Q. eauto.
    - destruct Q as (zs & e & -> & _). rewrite <- app_assoc. eauto.
  Qed.
  (** ... and no line is read from it too early: if next() reads it at all, then whatever it yields could not have been yielded with one line less,
      for a source that fails at that place would have given nothing more. *)
  Theorem C123_not_too_early ms gs line ys gs' k fuel ev gs'' k' : calls ms [] = Ok gs -> asked (endless line) gs 0 (map Yield ys) gs' k ->
    next (endless line) fuel gs' k = Some (ev, gs'', k') -> k < k' -> forall e, pipeline ms (map line (seq 0 (k' - 1)), Some e) = Ok (ys, Some e).
  Proof.
    intros C A N L e. destruct (next_pushd is_bytes start_column tab_width line _ _ _ _ _ _ N) as (_ & _ & P & _). specialize (P L).
    pose proof (asked_pushd _ _ _ _ _ _ A eq_refl ys eq_refl (map line (seq k (k' - k - 1)))) as Q. unfold part in P. rewrite P in Q. cbn [fst snd] in Q. rewrite app_nil_r in Q.
    rewrite <- map_app in Q. replace (seq 0 k ++ seq k (k' - k - 1)) with (seq 0 (k' - 1)) in Q by (replace (k' - 1) with (k + (k' - k - 1)) by lia; now rewrite seq_app).
    pose proof (calls_total is_bytes start_column tab_width ms [] (map line (seq 0 (k' - 1)), Some e)) as T. cbn [total] in T. rewrite C in T. rewrite T.
    pose proof (pushd_total is_bytes start_column tab_width gs (map line (seq 0 (k' - 1))) [] (Some e)) as R. rewrite Q in R. rewrite app_nil_r in R.
    destruct R as (zs & e1 & -> & R). destruct (R e eq_refl eq_refl) as (-> & ->). now rewrite app_nil_r.
  Qed.
  (** Only lines_sort waits for the end of the source, and only lines_strip_indent holds back lines, which are blank. *)
  Theorem C123_nothing_held_back ms l ys e e0 ys' e' : (forall lt r, ~ In (Sort lt r) ms) ->
    pipeline ms (l, None) = Ok (ys, e) -> pipeline ms (l, Some e0) = Ok (ys', e') ->
    exists held, ys = ys' ++ held /\ Forall (fun p => snd p = []) held /\ (~ In StripIndent ms -> held = []).
  Proof.
    intros NS A B.
    assert (G : forall strict, (strict = true -> ~ In StripIndent ms) -> held_back e0 strict (ys, e) (ys', e')).
    { intros strict NI. pose proof (pipeline_held is_bytes start_column tab_width e0 strict ms (l, None) (l, Some e0) NS NI) as H. rewrite A, B in H. apply H. right. exists l, [], None. rewrite app_nil_r. auto. }
    destruct (G false) as [[= -> ->]|(xs & held & e1 & [= -> ->] & [= -> ->] & H & _)]; [discriminate|exists []; rewrite app_nil_r; auto|].
    exists held. split; auto. split; auto. intros NI. destruct (G true) as [X|(xs' & held' & e2 & X & Y & _ & Z)]; [auto| |].
    - injection X as X _. rewrite <- (app_nil_r xs) in X at 2. now apply app_inv_head in X.
    - injection X as ->. injection Y as Y _. apply app_inv_head in Y. rewrite Y. now apply Z.
  Qed.
End Props.

(** Non-vacuity: an endless file, every other line of which is a comment, and whose lines are indented more and more *)
Definition deep (k : nat) : pair :=
  let line := if Nat.even k then repeat 32%N k ++ u "x" else repeat 32%N k ++ u "# y" in (mkInfo line (Z.of_nat k) 1 [] [] [] 0, line).
Definition deep_modifiers : list modifier := [StripComments [u "#"] [u "'"] (u "\") []; Rstrip None; FilterEmpty; StripIndent].
Example C123_witness : exists gs gs1 gs2, calls false deep_modifiers [] = Ok gs /\
  exists p q, snd p = u "x" /\ snd q = u "x" /\ i_indent (fst q) = 1%Z /\
  asked false 1 8 (endless deep) gs 0 (map Yield [p]) gs1 1 /\ next false 1 8 (endless deep) 100 gs1 1 = Some (Yield q, gs2, 3).
Proof.
  destruct (calls false deep_modifiers []) as [gs|e] eqn:C; [|vm_compute in C; discriminate].
  destruct (next false 1 8 (endless deep) 100 gs 0) as [[[ev gs1] k1]|] eqn:N1; vm_compute in C; injection C as <-; vm_compute in N1; [|discriminate]. injection N1 as <- <- <-.
  eexists _, _, _. split; [reflexivity|]. eexists _, _. repeat apply conj.
  4: { eapply (asked_next false 1 8 (endless deep) _ 0 100 _ _ 0 []); [constructor|]. vm_compute. reflexivity. }
  4: vm_compute; reflexivity.
  all: reflexivity.
Qed.
(** a finite source that fails, with an unwritten blank line held back by lines_strip_indent *)
Example C123_witness_held : exists i j, pipeline false 1 8 [StripIndent] ([(i, u "x"); (j, [])], None) = Ok ([(i, u "x"); (j, [])], None) /\
  pipeline false 1 8 [StripIndent] ([(i, u "x"); (j, [])], Some ValueError) = Ok ([(i, u "x")], Some ValueError).
Proof. exists (mkInfo (u "x") 1 1 [] [] [] 0), (mkInfo [] 2 1 [] [] [] 0). split; vm_compute; reflexivity. Qed.
(** lines_sort on an endless source never comes back: however many rounds are made *)
Theorem C123_sort_waits is_bytes start_column tab_width lt r line fuel : forall l k,
  next is_bytes start_column tab_width (endless line) fuel [Gen (Sort lt r) (Collected l) [] None] k = None.
Proof.
  induction fuel as [|fuel IH]; intros l k; [reflexivity|]. cbn [next]. destruct fuel as [|fuel]; [reflexivity|]. cbn [next endless body]. apply IH.
Qed.

Print Assumptions C123_calls.
Print Assumptions C123_generators.
Print Assumptions C123_right_so_far.
Print Assumptions C123_not_too_early.
Print Assumptions C123_nothing_held_back.
Print Assumptions C123_sort_waits.
