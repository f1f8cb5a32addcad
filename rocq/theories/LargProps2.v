(** C112: the arguments of lines_filter_line_comment_lines and lines_strip_line_comments. *)
From Verif Require Import PyStrProof LinesModel TypedModel TypedSpec TypedProps DargModel DargSpec DargProps LargModel LargSpec LargProps.

Section C112.
  Context (subscript : list obj -> result obj).
  Lemma texts_types k l m : texts_of k l m -> check_types k l = Ok m.
  Proof. intros H. apply check_types_ok. exact H. Qed.
  Lemma chars_types k v : check_types k (map (fun c => OText k None [c]) v) = Ok (map (fun x => [x]) v).
  Proof. apply check_types_ok. induction v; constructor; eauto. Qed.
  (** the objects that the loop over the markers sees *)
  Lemma markers_iterate k w m : markers_arg subscript k w m -> exists l, iterate_over_bytes w = Ok l /\ check_types k l = Ok m /\ length l = length m /\
    (forall c v, l = [OText k c v] -> m = [v]) /\ truth_value w = true /\
    (if is_bytes_value w then k = KBytes else exists c v, first_of subscript w = Ok (OText k c v)) /\
    (k = KStr -> iterate_value w = Ok l).
  Proof.
    intros H. assert (L : forall l m, texts_of k l m -> length l = length m) by (clear; intros l m' F; induction F; cbn; congruence).
    destruct H as [c v N|l m N F|l m c v N F S].
    - exists (map (fun c => OText k None [c]) v). split; [destruct k; reflexivity|]. split; [apply chars_types|]. split; [now rewrite !map_length|]. split.
      { intros c' v' E. destruct v as [|x [|y v]]; inversion E; subst. reflexivity. }
      split; [destruct v; [congruence|reflexivity]|]. split; [destruct k; [destruct v as [|x v]; [congruence|]; exists None, [x]; reflexivity|reflexivity]|]. intros ->. reflexivity.
    - exists l. split; [reflexivity|]. split; [apply texts_types, F|]. split; [apply L, F|]. split.
      { intros c v ->. inversion F as [|? ? ? ? (c' & E) F']; subst. inversion F'; subst. inversion E; subst. reflexivity. }
      split; [destruct l; [congruence|reflexivity]|]. split; [|reflexivity]. destruct F as [|o v l m (c & ->) F]; [congruence|]. exists c, v. reflexivity.
    - exists l. split; [reflexivity|]. split; [apply texts_types, F|]. split; [apply L, F|]. split.
      { intros c' v' ->. inversion F as [|? ? ? ? (c1 & E) F']; subst. inversion F'; subst. inversion E; subst. reflexivity. }
      split; [destruct l; [congruence|reflexivity]|]. split; [|reflexivity]. exists c, v. exact S.
  Qed.
  (** With markers of the type of the lines, the lines are those of C58; lines of the other type raise TypeError. *)
  Theorem C112_filter k w m : markers_arg subscript k w m ->
    exists f, filter_comments_py subscript w = Ok f /\ (forall line, f k line = Some (comment_line (is_bytes_kind k) m line)) /\ forall k' line, k' <> k -> f k' line = None.
  Proof.
    intros H. destruct (markers_iterate k w m H) as (l & I & C & Len & One & T & B & IV). unfold filter_comments_py. rewrite T. cbn [negb].
    set (b := if is_bytes_value w then Ok true else rmap is_bytes_obj (first_of subscript w)).
    assert (EB : b = Ok (is_bytes_kind k)). { subst b. destruct (is_bytes_value w); [subst k; reflexivity|]. destruct B as (c & v & ->). destruct k; reflexivity. }
    rewrite EB. cbn [rbind]. replace (if is_bytes_kind k then iterate_over_bytes w else iterate_value w) with (Ok l : result (list obj)); [|destruct k; cbn; [symmetry; apply IV; reflexivity|symmetry; exact I]].
    cbn [rbind]. assert (NK : forall k', k' <> k -> kind_eqb k k' = false) by (intros k' N; destruct k, k'; try reflexivity; congruence).
    assert (GEN : exists f, rmap (fun markers k' line => if kind_eqb (if is_bytes_kind k then KBytes else KStr) k' then Some (comment_line (is_bytes_kind (if is_bytes_kind k then KBytes else KStr)) markers line) else None) (markers_of (if is_bytes_kind k then KBytes else KStr) l) = Ok f /\
      (forall line, f k line = Some (comment_line (is_bytes_kind k) m line)) /\ forall k' line, k' <> k -> f k' line = None).
    { replace (if is_bytes_kind k then KBytes else KStr) with k by (destruct k; reflexivity). unfold markers_of. rewrite C. cbn [rmap]. eexists. split; [reflexivity|]. cbn beta. rewrite DargProps.kind_eqb_refl. split; [reflexivity|]. intros k' line N. now rewrite NK. }
    destruct l as [|o [|o' l]]; [exact GEN| |destruct o; exact GEN]. cbn [check_types] in C. destruct o as [k1 c v| | | |]; try discriminate. destruct (kind_eqb k k1) eqn:K; [|discriminate]. apply DargProps.kind_eqb_iff in K as <-.
    rewrite (One _ _ eq_refl). eexists. split; [reflexivity|]. cbn beta. rewrite DargProps.kind_eqb_refl. split; [reflexivity|]. intros k' line N. now rewrite NK.
  Qed.
  Lemma first_cases w : truth_value w = true ->
    match first_of subscript w with
    | Ok o => first_is subscript w o \/ (is_bytes_value w = true /\ o = an_int)
    | Err e => no_first subscript w e
    end.
  Proof.
    destruct w as [[[|] c [|x v]| |[|y l]|l|[|]]|[|y l]]; cbn [truth_value truth is_nil negb first_of]; intros T; try discriminate.
    - left. right. left. eauto.
    - right. auto.
    - destruct (subscript (y :: l)) eqn:S.
      + left. right. right. exists (y :: l). split; [discriminate|auto].
      + right. right. exists (y :: l). split; [discriminate|auto].
    - left. eauto.
    - right. left. auto.
    - left. left. eauto.
  Qed.
  Lemma first_unique w o : first_is subscript w o -> first_of subscript w = Ok o /\ is_bytes_value w = false /\ truth_value w = true.
  Proof. intros [(l & ->)|[(c & x & v & -> & ->)|(l & N & -> & S)]]; cbn; auto. split; [exact S|]. destruct l; [congruence|auto]. Qed.
  Lemma no_first_of w e : no_first subscript w e -> first_of subscript w = Err e /\ is_bytes_value w = false /\ truth_value w = true.
  Proof. intros [((l & ->) & ->)|[(-> & ->)|(l & N & -> & S)]]; cbn; auto. split; [exact S|]. destruct l; [congruence|auto]. Qed.
  (** what iterating over markers gives, bytes being cut in pieces *)
  Inductive pieces : value -> list obj -> Prop :=
  | pieces_bytes c v : pieces (Obj (OText KBytes c v)) (map (fun x => OText KBytes None [x]) v)
  | pieces_other w l : is_bytes_value w = false -> elements w l -> pieces w l.
  Lemma pieces_iterate w l : pieces w l <-> iterate_over_bytes w = Ok l.
  Proof.
    split.
    - intros [c v|w' l' B E]; [reflexivity|]. apply elements_iterate in E. destruct w' as [[[|] ? ?| | | |]|]; try discriminate B; exact E.
    - intros H. destruct w as [[[|] c v| |l'|l'|b]|l']; cbn in H; inversion H; subst; try (apply pieces_other; [reflexivity|constructor]). apply pieces_bytes.
  Qed.
  Lemma first_no_uniterable w o : first_is subscript w o -> exists l, pieces w l.
  Proof. intros [(l & ->)|[(c & x & v & -> & ->)|(l & N & -> & S)]]; eexists; apply pieces_other; try reflexivity; constructor. Qed.
  (** The exceptions of the call.  A single marker is not looked at. *)
  Theorem C112_filter_errors w e : filter_comments_py subscript w = Err e <->
    truth_value w = false /\ e = ValueError \/ no_first subscript w e \/
    (exists o l x, first_is subscript w o /\ pieces w l /\ length l <> 1 /\ In x l /\ foreign (if is_bytes_obj o then KBytes else KStr) x /\ e = TypeError).
  Proof.
    unfold filter_comments_py. destruct (truth_value w) eqn:T; cbn [negb].
    2:{ split; [intros [= <-]; auto|]. intros [(_ & ->)|[N|(o & l & x & F & _)]]; [reflexivity| |].
        - apply no_first_of in N as (_ & _ & N). congruence.
        - apply first_unique in F as (_ & _ & F). congruence. }
    destruct (is_bytes_value w) eqn:B.
    { cbn [rbind]. destruct w as [[[|] c v| | | |]|]; try discriminate B. cbn [iterate_over_bytes rbind]. 
      assert (OK : match map (fun c0 => OText KBytes None [c0]) v with
        | [OText k _ v0] => Ok (fun k' line => if kind_eqb k k' then Some (comment_line (is_bytes_kind k) [v0] line) else None)
        | [ONone] | [OSeq _] | [OIter _] | [OOther _] => Ok (fun _ _ => None)
        | _ => rmap (fun markers k' line => if kind_eqb KBytes k' then Some (comment_line (is_bytes_kind KBytes) markers line) else None) (markers_of KBytes (map (fun c0 => OText KBytes None [c0]) v))
        end <> Err e).
      { unfold markers_of. rewrite chars_types. cbn [rmap]. destruct v as [|x [|y v]]; discriminate. }
      split; [intros H; exfalso; exact (OK H)|]. intros [(X & _)|[N|(o & l & x & F & _)]]; [discriminate| |].
      - apply no_first_of in N as (_ & N & _). discriminate.
      - apply first_unique in F as (_ & F & _). discriminate. }
    pose proof (first_cases w T) as FC. destruct (first_of subscript w) as [o|e'] eqn:F; cbn [rmap rbind].
    2:{ split; [intros [= <-]; auto|]. intros [(X & _)|[N|(o & l & x & F' & _)]]; [discriminate| |].
        - apply no_first_of in N as (N & _). congruence.
        - apply first_unique in F' as (F' & _). congruence. }
    destruct FC as [FI|(X & _)]; [|congruence]. destruct (first_no_uniterable w o FI) as (l & P).
    assert (IT : iterate_over_bytes w = Ok l) by (apply pieces_iterate, P).
    assert (IV : iterate_value w = Ok l) by (destruct w as [[[|] ? ?| | | |]|]; try discriminate B; exact IT).
    replace (if is_bytes_obj o then iterate_over_bytes w else iterate_value w) with (Ok l : result (list obj)) by (destruct (is_bytes_obj o); congruence). cbn [rbind].
    assert (R : (truth_value w = false /\ e = ValueError \/ no_first subscript w e \/ (exists o l x, first_is subscript w o /\ pieces w l /\ length l <> 1 /\ In x l /\ foreign (if is_bytes_obj o then KBytes else KStr) x /\ e = TypeError)) <->
                length l <> 1 /\ (exists x, In x l /\ foreign (if is_bytes_obj o then KBytes else KStr) x) /\ e = TypeError).
    { split.
      - intros [(X & _)|[N|(o1 & l1 & x & F1 & P1 & L1 & I1 & Fo & ->)]].
        + congruence.
        + apply no_first_of in N as (N & _). congruence.
        + apply first_unique in F1 as (F1 & _). rewrite F in F1. inversion F1; subst o1. apply pieces_iterate in P1. rewrite IT in P1. inversion P1; subst l1. eauto.
      - intros (L & (x & I & Fo) & ->). right. right. exists o, l, x. auto 8. }
    rewrite T in R. rewrite R. set (k := if is_bytes_obj o then KBytes else KStr) in *.
    assert (GEN : rmap (fun markers k' line => if kind_eqb k k' then Some (comment_line (is_bytes_kind k) markers line) else None) (markers_of k l) = Err e <->
      (exists x, In x l /\ foreign k x) /\ e = TypeError).
    { unfold markers_of. destruct (check_types k l) as [m|e'] eqn:C; cbn [rmap].
      - split; [discriminate|]. intros (X & ->). assert (Y : check_types k l = Err TypeError) by (apply check_types_err; auto). congruence.
      - apply check_types_err in C as (-> & X). split; [intros [= <-]; auto|]. intros (_ & ->). reflexivity. }
    destruct l as [|a [|a' l]].
    - rewrite GEN. cbn [length]. intuition lia.
    - destruct a; (split; [discriminate|intros (L & _); cbn in L; lia]).
    - cbn [length]. destruct a; rewrite GEN; intuition lia.
  Qed.
  (** Sets and iterators are iterables of strings, but are rejected. *)
  Theorem C112_iterable_refuted : subscript [OText KStr None (u "#")] = Err TypeError ->
    filter_comments_py subscript (Obj (OSeq [OText KStr None (u "#")])) = Err TypeError /\ filter_comments_py subscript (Obj (OIter [OText KStr None (u "#")])) = Err TypeError.
  Proof. intros S. split; [|reflexivity]. unfold filter_comments_py. cbn [truth_value truth is_nil negb is_bytes_value is_bytes_obj first_of]. rewrite S. reflexivity. Qed.

  (** lines_strip_line_comments without quotes *)
  Theorem C112_strip same k w m quotes multi escape : markers_arg subscript k w m -> truth_value quotes = false -> truth_value multi = false ->
    strip_comments_py subscript same w quotes escape multi = Ok (k, m, None).
  Proof.
    intros H Q M. destruct (markers_iterate k w m H) as (l & I & C & _ & _ & T & B & _). unfold strip_comments_py, check_quotes. rewrite T, Q, M. cbn [negb orb rbind].
    assert (E : (if is_bytes_value w then Ok KBytes else rbind (first_of subscript w) (fun o => match o with OText k _ _ => Ok k | _ => Err ValueError end)) = Ok k).
    { destruct (is_bytes_value w); [congruence|]. destruct B as (c & v & ->). reflexivity. }
    rewrite E, I. cbn [rbind]. unfold markers_of. rewrite C. reflexivity.
  Qed.
  Theorem C112_strip_errors same w quotes multi escape e : truth_value quotes = false -> truth_value multi = false ->
    strip_comments_py subscript same w quotes escape multi = Err e <->
    truth_value w = false /\ e = ValueError \/ no_first subscript w e \/
    (exists o, first_is subscript w o /\ (forall k c v, o <> OText k c v) /\ e = ValueError) \/
    (exists k c v l x, first_is subscript w (OText k c v) /\ pieces w l /\ In x l /\ foreign k x /\ e = TypeError).
  Proof.
    intros Q M. unfold strip_comments_py, check_quotes. rewrite Q, M. cbn [orb rbind]. destruct (truth_value w) eqn:T; cbn [negb].
    2:{ split; [intros [= <-]; auto|]. intros [(_ & ->)|[N|[(o & F & _)|(k & c & v & l & x & F & _)]]]; [reflexivity| | |].
        - apply no_first_of in N as (_ & _ & N). congruence.
        - apply first_unique in F as (_ & _ & F). congruence.
        - apply first_unique in F as (_ & _ & F). congruence. }
    destruct (is_bytes_value w) eqn:B.
    { cbn [rbind]. destruct w as [[[|] c v| | | |]|]; try discriminate B. cbn [iterate_over_bytes rbind]. unfold markers_of. rewrite chars_types. cbn [rmap].
      split; [discriminate|]. intros [(X & _)|[N|[(o & F & _)|(k & c' & v' & l & x & F & _)]]]; [discriminate| | |].
      - apply no_first_of in N as (_ & N & _). discriminate.
      - apply first_unique in F as (_ & F & _). discriminate.
      - apply first_unique in F as (_ & F & _). discriminate. }
    pose proof (first_cases w T) as FC. destruct (first_of subscript w) as [o|e'] eqn:F; cbn [rbind].
    2:{ split; [intros [= <-]; auto|]. intros [(X & _)|[N|[(o & F' & _)|(k & c & v & l & x & F' & _)]]]; [discriminate| | |].
        - apply no_first_of in N as (N & _). congruence.
        - apply first_unique in F' as (F' & _). congruence.
        - apply first_unique in F' as (F' & _). congruence. }
    destruct FC as [FI|(X & _)]; [|congruence]. destruct (first_no_uniterable w o FI) as (l & P).
    assert (IT : iterate_over_bytes w = Ok l) by (apply pieces_iterate, P). rewrite IT.
    assert (NT : (forall k c v, o <> OText k c v) -> ValueError = e <-> true = false /\ e = ValueError \/ no_first subscript w e \/ (exists o, first_is subscript w o /\ (forall k c v, o <> OText k c v) /\ e = ValueError) \/
       (exists k c v l x, first_is subscript w (OText k c v) /\ pieces w l /\ In x l /\ foreign k x /\ e = TypeError)).
    { intros N. split; [intros <-; right; right; left; eauto|]. intros [(X & _)|[N'|[(o' & _ & _ & ->)|(k & c & v & l' & x & F' & _)]]]; [discriminate| |reflexivity|].
      - apply no_first_of in N' as (N' & _). congruence.
      - apply first_unique in F' as (F' & _). rewrite F in F'. inversion F'; subst. destruct (N _ _ _ eq_refl). }
    destruct o as [k c v| |l'|l'|b]; cbn [rbind];
      try (transitivity (ValueError = e); [split; [intros X; inversion X; reflexivity|intros ->; reflexivity]|apply NT; discriminate]).
    unfold markers_of. destruct (check_types k l) as [m|e'] eqn:C; cbn [rmap].
    - split; [discriminate|]. intros [(X & _)|[N'|[(o' & F' & N & ->)|(k' & c' & v' & l' & x & F' & P' & I & Fo & ->)]]]; [discriminate| | |].
      + apply no_first_of in N' as (N' & _). congruence.
      + apply first_unique in F' as (F' & _). rewrite F in F'. inversion F'; subst. destruct (N _ _ _ eq_refl).
      + apply first_unique in F' as (F' & _). rewrite F in F'. inversion F'; subst. apply pieces_iterate in P'. rewrite IT in P'. inversion P'; subst.
        assert (Y : check_types k' l' = Err TypeError) by (apply check_types_err; eauto). congruence.
    - apply check_types_err in C as (-> & x & I & Fo). split.
      + intros X. inversion X; subst. right. right. right. exists k, c, v, l, x. auto.
      + intros [(X & _)|[N'|[(o' & F' & N & ->)|(k' & c' & v' & l' & x' & F' & P' & I' & Fo' & ->)]]]; [discriminate| | |reflexivity].
        * apply no_first_of in N' as (N' & _). congruence.
        * apply first_unique in F' as (F' & _). rewrite F in F'. inversion F'; subst. destruct (N _ _ _ eq_refl).
  Qed.
  (** ... and with quotes of the type of the markers: the checks are those of the model on which C59 and C93 are stated *)
  Theorem C112_strip_quotes same k w m quotes q multi ml escape e : equality_ok same -> markers_arg subscript k w m ->
    quotes_arg same k (of_value quotes) q -> multiline_arg k (of_value multi) ml -> escape_arg k escape ml e ->
    (* the first element of quotes, or of multiline_quotes if that is empty *)
    (let not_empty := if truth_value quotes then quotes else multi in (exists c v, not_empty = Obj (OText k c v) /\ v <> []) \/ exists c v l, not_empty = Tuple (OText k c v :: l)) ->
    q ++ ml <> [] ->
    strip_comments_py subscript same w quotes escape multi =
      match modify (is_bytes_kind k) 1 8 (StripComments m q e ml) ([], None) with Ok _ => Ok (k, m, Some k) | Err x => Err x end.
  Proof.
    intros EQ H Q M E N NE. destruct (markers_iterate k w m H) as (l & I & C & Len & _ & T & B & _). unfold strip_comments_py, check_quotes. rewrite T. cbn [negb].
    assert (EK : (if is_bytes_value w then Ok KBytes else rbind (first_of subscript w) (fun o => match o with OText k _ _ => Ok k | _ => Err ValueError end)) = Ok k).
    { destruct (is_bytes_value w); [congruence|]. destruct B as (c & v & ->). reflexivity. }
    rewrite EK. cbn [rbind].
    assert (TT : truth_value quotes || truth_value multi = true).
    { destruct (truth_value quotes); [reflexivity|]. cbn [orb]. destruct N as [(c & v & -> & Nv)|(c & v & l' & ->)]; [destruct v; [congruence|reflexivity]|reflexivity]. }
    rewrite TT. set (ne := if truth_value quotes then quotes else multi) in *.
    assert (EN : (if is_bytes_value ne then Ok KBytes else rmap (fun o => if is_bytes_obj o then KBytes else KStr) (first_of subscript ne)) = Ok k).
    { destruct N as [(c & v & -> & Nv)|(c & v & l' & ->)]; destruct k; try reflexivity. destruct v; [congruence|reflexivity]. }
    rewrite EN. cbn [rbind]. rewrite (C108_split_quoted_strings same EQ k [120%N] _ escape _ ONone q e ml [] Q M E (or_introl (conj (or_introl eq_refl) eq_refl))).
    unfold modify. replace (is_nil m) with false.
    2:{ destruct m; [|reflexivity]. exfalso. clear - H. inversion H as [c v Nv X Y|l' m' Nl F X Y|l' m' c v Nl F S X Y]; subst; [destruct v; [congruence|discriminate]|inversion F; subst; congruence|inversion F; subst; congruence]. }
    replace (is_nil q && is_nil ml) with false by (destruct q, ml; try reflexivity; destruct NE; reflexivity).
    destruct (split_quoted_strings (is_bytes_kind k) [120%N] q e ml []); cbn [rmap rbind]; [|reflexivity]. rewrite I. cbn [rbind]. unfold markers_of. rewrite C. reflexivity.
  Qed.
End C112.
Print Assumptions C112_filter. Print Assumptions C112_filter_errors. Print Assumptions C112_strip. Print Assumptions C112_strip_errors. Print Assumptions C112_strip_quotes. Print Assumptions C112_iterable_refuted.
(** A case with all that is needed, and late errors: a single marker of the wrong type is only found out at the first line. *)
Example C112_nonvacuous : let sub := fun _ : list obj => Err TypeError in
  markers_arg sub KBytes (Tuple [OText KBytes None (u "#"); OText KBytes (Some 2) (u "//")]) [u "#"; u "//"] /\ (exists f, filter_comments_py sub (Tuple [OText KBytes None (u "#"); OText KBytes (Some 2) (u "//")]) = Ok f /\ f KBytes (u "  //x") = Some true /\ f KBytes (u "x#") = Some false) /\ filter_comments_py sub (Tuple [OText KBytes None (u "#"); OText KStr None (u "//")]) = Err TypeError /\ (exists f, filter_comments_py sub (Tuple [OOther true]) = Ok f /\ f KStr (u "x") = None) /\ strip_comments_py sub some_same (Obj (OText KStr None (u "#;"))) (Obj (OText KStr None (u "'"))) (OText KStr None backslash) (Tuple []) = Ok (KStr, [u "#"; u ";"], Some KStr) /\ strip_comments_py sub some_same (Tuple [OOther true]) (Tuple []) (OText KStr None backslash) (Tuple []) = Err ValueError.
Proof.
  cbn beta zeta. split; [apply markers_tuple; [discriminate|repeat constructor; eauto]|]. split; [eexists; repeat split; reflexivity|].
  split; [reflexivity|]. split; [eexists; split; reflexivity|]. split; vm_compute; reflexivity.
Qed.
