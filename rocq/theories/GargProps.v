(** C114: the arguments of gently_title. *)
From Verif Require Import PyBaseProof SplitModel DelimProps TypedModel TypedSpec TypedProps DargModel WordsModel WordsSpec WordsProof3 WordsProps GargModel GargSpec.

Section C114.
  Context (upper : chr -> str).
  Lemma marks_arg_ok k default o m : (exists r, marks_arg k o = Ok r /\ match r with None => default | Some l => l end = m) <-> marks_are k default o m.
  Proof.
    split.
    - intros (r & E & <-). destruct o as [k' c v| |l|l|b]; cbn [marks_arg] in E.
      + assert (X : exists l, marks_iterate k (OText k' c v) = Ok l /\ (k' = k -> l = map (fun x => OText k None [x]) v) /\ (k' <> k -> v <> [] -> check_each k l = Err TypeError)).
        { destruct k, k'; cbn [marks_iterate iterate]; eexists; (split; [reflexivity|]); split; try congruence; intros _ N; destruct v; try congruence; reflexivity. }
        destruct X as (l & X & S & D). rewrite X in E. cbn [rbind] in E. destruct (check_each k l) as [m|e] eqn:C; cbn [rbind] in E; [|discriminate].
        destruct (truth _) eqn:T in E; [|discriminate]. cbn [truth] in T. assert (N : v <> []) by (intros ->; discriminate).
        injection E as <-. assert (k' = k) as -> by (destruct (kind_eqb k' k) eqn:KE; [destruct k, k'; auto; discriminate|]; assert (KN : k' <> k) by (intros KK; rewrite KK in KE; destruct k; cbn in KE; discriminate KE); specialize (D KN N); congruence). rewrite (S eq_refl) in C.
        assert (m = map (fun x => [x]) v) as ->. { clear -C. revert m C. induction v as [|x v IH]; cbn [map check_each]; intros m; [intros [= <-]; auto|].
          replace (kind_eqb k k) with true by (destruct k; auto). cbn [is_nil]. destruct (check_each k (map _ v)) as [t|]; cbn [rmap]; [|discriminate]. intros [= <-]. f_equal. now apply IH. }
        apply marks_given; [now constructor|]. clear. induction v; cbn; [tauto|]. intros [X|X]; [discriminate|tauto].
      + injection E as <-. constructor.
      + cbn [marks_iterate] in E. replace (marks_iterate k (OSeq l)) with (Ok l) in E by (destruct k; auto). cbn [rbind] in E. destruct (check_each k l) as [m|e] eqn:C; cbn [rbind] in E; [|discriminate].
        destruct (truth _) eqn:T in E; [|discriminate]. injection E as <-. apply check_each_ok in C as [F N]. apply marks_given; auto. constructor; auto. intros ->; discriminate.
      + replace (marks_iterate k (OIter l)) with (Ok l) in E by (destruct k; auto). cbn [rbind] in E. destruct (check_each k l) as [m|e] eqn:C; cbn [rbind] in E; [|discriminate].
        cbn [truth] in E. injection E as <-. apply check_each_ok in C as [F N]. destruct l as [|x l]; [inversion F; apply marks_none|]. apply marks_given; auto. constructor; auto. discriminate.
      + destruct k; discriminate.
    - intros [|o' m' S N|]; [exists None; auto| |exists (Some []); destruct k; auto]. exists (Some m'). split; auto. destruct S as [c v V|l seps L F|l seps L F]; unfold marks_arg.
      + replace (marks_iterate k (OText k c v)) with (Ok (map (fun x => OText k None [x]) v)) by (destruct k; reflexivity). cbn [rbind].
        assert (C : check_each k (map (fun x => OText k None [x]) v) = Ok (map (fun x => [x]) v)).
        { apply check_each_ok. split; auto. clear. induction v; constructor; eauto. }
        rewrite C. cbn [rbind truth]. destruct v; [congruence|reflexivity].
      + replace (marks_iterate k (OSeq l)) with (Ok l) by (destruct k; auto). cbn [rbind]. assert (C : check_each k l = Ok seps) by (apply check_each_ok; auto). rewrite C. cbn [rbind truth]. destruct l; [congruence|reflexivity].
      + replace (marks_iterate k (OIter l)) with (Ok l) by (destruct k; auto). cbn [rbind]. assert (C : check_each k l = Ok seps) by (apply check_each_ok; auto). rewrite C. reflexivity.
  Qed.
  Lemma marks_arg_err k o e : marks_arg k o = Err e <-> wrong_marks k o e.
  Proof.
    split.
    - intros E. destruct o as [k' c v| |l|l|b]; cbn [marks_arg] in E; [|discriminate| | |destruct k; cbn in E; injection E as <-; constructor].
      + destruct v as [|x v]; [assert (Y : e = ValueError) by (destruct k, k'; cbn in E; congruence); rewrite Y; constructor; eauto|].
        destruct k, k'; cbn [marks_iterate iterate map check_each kind_eqb is_nil rbind an_int] in E; try (injection E as <-; apply marks_kind; discriminate).
        * exfalso. assert (C : check_each KStr (map (fun x => OText KStr None [x]) v) = Ok (map (fun x => [x]) v)).
          { apply check_each_ok. split; [clear; induction v; constructor; eauto|]. clear; induction v; cbn; [tauto|]. intros [X|X]; [discriminate|tauto]. }
          rewrite C in E. discriminate.
        * exfalso. assert (C : check_each KBytes (map (fun x => OText KBytes None [x]) v) = Ok (map (fun x => [x]) v)).
          { apply check_each_ok. split; [clear; induction v; constructor; eauto|]. clear; induction v; cbn; [tauto|]. intros [X|X]; [discriminate|tauto]. }
          rewrite C in E. discriminate.
      + replace (marks_iterate k (OSeq l)) with (Ok l) in E by (destruct k; auto). cbn [rbind] in E. destruct (check_each k l) as [m|e'] eqn:C; cbn [rbind] in E.
        * destruct l; [|discriminate]. injection E as <-. constructor. auto.
        * injection E as <-. apply check_each_err in C as [(g & y & r & -> & G & Fo & ->)|(g & c & r & -> & G & ->)]; [eapply marks_type_in|eapply marks_empty_in]; eauto.
      + replace (marks_iterate k (OIter l)) with (Ok l) in E by (destruct k; auto). cbn [rbind] in E. destruct (check_each k l) as [m|e'] eqn:C; cbn [rbind] in E; [discriminate|].
        injection E as <-. apply check_each_err in C as [(g & y & r & -> & G & Fo & ->)|(g & c & r & -> & G & ->)]; [eapply marks_type_in|eapply marks_empty_in]; eauto.
    - intros [o' [->|(k' & c & ->)]|k' c v D N|b|o' g x r H G Fo|o' g c r H G].
      + destruct k; reflexivity.
      + destruct k, k'; reflexivity.
      + destruct v as [|x v]; [congruence|]. destruct k, k'; try congruence; reflexivity.
      + destruct k; reflexivity.
      + assert (C : check_each k (g ++ x :: r) = Err TypeError) by (apply check_each_err; left; exists g, x, r; auto).
        destruct H as [-> | ->]; destruct k; cbn [marks_arg marks_iterate iterate rbind]; rewrite C; reflexivity.
      + assert (C : check_each k (g ++ OText k c [] :: r) = Err ValueError) by (apply check_each_err; right; exists g, c, r; auto).
        destruct H as [-> | ->]; destruct k; cbn [marks_arg marks_iterate iterate rbind]; rewrite C; reflexivity.
  Qed.

  Lemma loop_ext is_bytes (a a' d d' : chr -> bool) : (forall c, a c = a' c) -> (forall c, d c = d' c) ->
    forall s t, gentle_loop is_bytes upper a d t s = gentle_loop is_bytes upper a' d' t s.
  Proof.
    intros A D. induction s as [|c s IH]; intros t; cbn [gentle_loop]; auto. unfold gentle_step. rewrite A, D. destruct t; cbn zeta; repeat match goal with |- context [if ?b then _ else _] => destruct b end; rewrite ?IH; reflexivity.
  Qed.
  (** For a str and for bytes alike, whatever class s is of: the result is a str or bytes like s, and it is what C49 says of the marks the arguments
      stand for (with [["ab"]] for no marks at all: only marks of one character can match one). *)
  Definition marks_or (m : list str) : list str := match m with [] => [u "ab"] | _ => m end.
  Theorem C114_accepted k cls s apostrophes double_quotes a d :
    marks_are k (default_apostrophes (is_bytes_kind k)) apostrophes a -> marks_are k (default_double_quotes (is_bytes_kind k)) double_quotes d ->
    exists out, gently_title_py upper k cls s apostrophes double_quotes = Ok (OText k None out) /\
      gently_title (is_bytes_kind k) upper s (Some (marks_or a)) (Some (marks_or d)) = Ok out.
  Proof.
    intros A D. assert (G : forall m, ~ In [] m -> quote_set [] (Some (marks_or m)) = Ok (fun c => str_in [c] (marks_or m))).
    { intros m N. unfold quote_set. assert (existsb is_nil (marks_or m) = false) as ->; [|destruct m; reflexivity].
      destruct m as [|x m]; auto. apply not_true_iff_false. intros X. apply existsb_exists in X as (y & I & Y). destruct y; [exact (N I)|discriminate]. }
    assert (M : forall default o m, ~ In [] default -> marks_are k default o m -> ~ In [] m) by (intros default o m N [|o' m' S N'|]; auto).
    assert (O : forall m c, str_in [c] (marks_or m) = str_in [c] m) by (intros [|x m] c; [|reflexivity]; unfold str_in; cbn; destruct (c =? _)%N; reflexivity).
    assert (NA : ~ In [] a) by (eapply M; [|exact A]; destruct k; cbn; intuition discriminate).
    assert (ND : ~ In [] d) by (eapply M; [|exact D]; destruct k; cbn; intuition discriminate).
    apply marks_arg_ok in A as (ra & Ea & Ma), D as (rd & Ed & Md). unfold gently_title_py. rewrite Ea, Ed. cbn [rbind]. eexists. split; [reflexivity|].
    unfold gently_title, quote_set in *. pose proof (G a NA) as Ga. pose proof (G d ND) as Gd.
    destruct (existsb is_nil (marks_or a)); [discriminate|]. destruct (is_nil (marks_or a)); [discriminate|].
    destruct (existsb is_nil (marks_or d)); [discriminate|]. destruct (is_nil (marks_or d)); [discriminate|].
    f_equal. fold (is_bytes_kind k). apply loop_ext; intros c; rewrite O; unfold marks_set; subst; [destruct ra|destruct rd]; reflexivity.
  Qed.
  (** The exceptions. *)
  Theorem C114_errors k cls s apostrophes double_quotes e :
    gently_title_py upper k cls s apostrophes double_quotes = Err e <->
    wrong_marks k apostrophes e \/ ((exists a, marks_are k (default_apostrophes (is_bytes_kind k)) apostrophes a) /\ wrong_marks k double_quotes e).
  Proof.
    rewrite <- !marks_arg_err. unfold gently_title_py. destruct (marks_arg k apostrophes) as [ra|e1] eqn:A; cbn [rbind].
    - assert (X : exists a, marks_are k (default_apostrophes (is_bytes_kind k)) apostrophes a) by (eexists; apply marks_arg_ok; eauto).
      destruct (marks_arg k double_quotes) as [rd|e2]; cbn [rbind]; (split; [intros HH; first [discriminate HH|injection HH as <-; auto]|intros [H|[_ H]]; congruence]).
    - split; [intros HH; injection HH as ->; now left|].
      intros HH. destruct HH as [H|H]; [congruence|].
      destruct H as [[a H] _]. apply (marks_arg_ok k (default_apostrophes (is_bytes_kind k)) apostrophes a) in H. destruct H as (r & H & _). congruence.
  Qed.
  (** "If apostrophes is false, gently_title will use a default value": only for None; '' and [] are errors. *)
  Theorem C114_false_default_refuted k cls s o : truth o = false -> o <> ONone -> exists e,
    gently_title_py upper k cls s o ONone = Err e /\ gently_title_py upper k cls s ONone o = Err e /\ (e = ValueError \/ exists b, o = OOther b /\ e = TypeError).
  Proof.
    intros T N. destruct o as [k' c v| |l|l|b]; cbn [truth] in T; [destruct v; [|discriminate]|congruence|destruct l; [|discriminate]|discriminate|].
    - exists ValueError. split; [apply C114_errors; left; constructor; eauto|]. split; [apply C114_errors; right; split; [eexists; constructor|constructor; eauto]|auto].
    - exists ValueError. split; [apply C114_errors; left; constructor; eauto|]. split; [apply C114_errors; right; split; [eexists; constructor|constructor; eauto]|auto].
    - exists TypeError. split; [apply C114_errors; left; constructor|]. split; [apply C114_errors; right; split; [eexists; constructor|constructor]|eauto].
  Qed.
  (** and an iterator that yields nothing is not one, but means no marks at all *)
  Theorem C114_empty_iterator k cls s : exists out, gently_title_py upper k cls s (OIter []) (OIter []) = Ok (OText k None out) /\
    gently_title (is_bytes_kind k) upper s (Some [u "ab"]) (Some [u "ab"]) = Ok out.
  Proof. apply (C114_accepted k cls s (OIter []) (OIter []) [] []); apply marks_none. Qed.
End C114.
Print Assumptions C114_accepted. Print Assumptions C114_errors. Print Assumptions C114_false_default_refuted. Print Assumptions C114_empty_iterator.
Example C114_witness : gently_title_py ascii_upper KBytes (Some 0) (u "peter o-toole") (OSeq [OText KBytes None (u "-")]) ONone = Ok (OText KBytes None (u "Peter O-Toole")).
Proof. vm_compute. reflexivity. Qed.
Example C114_witness_types : gently_title_py ascii_upper KStr None (u "o'toole") (OText KBytes None (u "'")) ONone = Err TypeError /\
  gently_title_py ascii_upper KStr None (u "o'toole") (OIter []) ONone = Ok (OText KStr None (u "O'toole")).
Proof. vm_compute. auto. Qed.
