(** C110: lines() with arguments of any type.  C111: LineInfo objects.  C112: the argument checks of the comment modifiers.  C113: lines_grep. *)
From Verif Require Import PyStrProof LinesModel TypedModel TypedSpec TypedProps DargModel LargModel LargSpec.

Ltac getc := cbn [get map fst snd app]; unfold get; repeat (match goal with |- context [str_eqb ?a ?b] => let r := eval vm_compute in (str_eqb a b) in change (str_eqb a b) with r end; cbn beta iota).

Section C110.
  Context (subclass : nat -> nat -> bool).
  Lemma elements_iterate w l : elements w l <-> iterate_value w = Ok l.
  Proof.
    split.
    - intros H. destruct H; reflexivity.
    - destruct w as [[[|] c v| |l'|l'|b]|l']; cbn [iterate_value iterate]; intros E; inversion E; subst; constructor.
  Qed.
  (** one value that is, or should be, a pair *)
  Lemma pair_step self w n col :
    match rbind (unpack w) (fun '(line, end_) => rbind (if truth end_ then add line end_ else Ok line) (fun o => rmap (fun info => (info, line))
        (LineInfo_py subclass self (PObj o) (PInt n) (PInt col) (PObj ONone) (PObj ONone) (PObj end_) (PInt 0) (PObj ONone) []))) with
    | Ok (info, line) => exists k c v e, line = OText k c v /\ reads subclass PairsShape w k c v e /\ describes info self k v e n col
    | Err x => rejects subclass PairsShape w x
    end.
  Proof.
    unfold unpack. destruct (iterate_value w) as [l|x] eqn:I.
    2:{ cbn [rbind]. assert (x = TypeError) as ->. { destruct w as [[[|] c v| |l'|l'|b]|l']; cbn in I; congruence. }
        apply rejects_uniterable. intros l H. apply elements_iterate in H. congruence. }
    cbn [rbind]. assert (EL : elements w l) by (apply elements_iterate; exact I).
    assert (DET : forall l', elements w l' -> l' = l) by (intros l' H; apply elements_iterate in H; congruence).
    destruct l as [|a [|b [|x l]]]; cbn [rbind]; try (apply (rejects_count subclass w _ EL); cbn; lia).
    assert (BAD : (forall k c v e, ~ reads subclass PairsShape w k c v e) -> rejects subclass PairsShape w TypeError) by (intros H; eapply rejects_pair; eauto).
    assert (BAD' : (forall k c v, a = OText k c v -> (forall c' e, b = OText k c' e -> e <> [] \/ instance subclass c' c -> False) /\ b <> ONone) -> rejects subclass PairsShape w TypeError).
    { intros H. apply BAD. intros k c v e R. inversion R as [|? ? ? ? c' ? E1 E2|? ? ? ? E1]; subst; apply DET in E1; inversion E1; subst.
      - destruct (H _ _ _ eq_refl) as (H1 & _). exact (H1 _ _ eq_refl E2).
      - destruct (H _ _ _ eq_refl) as (_ & H1). congruence. }
    destruct a as [k c v| |l|l|bb].
    2,3,4,5: destruct (truth b); [destruct b; cbn [add rbind]|cbn [rbind LineInfo_py rmap]]; apply BAD'; intros k0 c0 v0 X; discriminate X.
    destruct b as [k' c' e| |l|l|bb].
    - cbn [truth]. destruct e as [|x e]; cbn [is_nil negb].
      + cbn [rbind]. unfold LineInfo_py. cbn [is_int negb or_empty rbind isinstance_of].
        destruct (kind_eqb k k') eqn:K; cbn [andb rbind rmap].
        * apply TypedProps.kind_eqb_iff in K as <-.
          destruct (match c, c' with None, _ => true | Some d, Some d' => subclass d' d | Some _, None => false end) eqn:CC; cbn [rbind rmap].
          -- exists k, c, v, []. split; [reflexivity|]. split; [eapply reads_pair; [exact EL|right; destruct c, c'; cbn; auto; discriminate]|].
             unfold describes. rewrite app_nil_r. repeat match goal with |- _ /\ _ => split end; getc; unfold empty_text; eauto.
          -- apply BAD'. intros k0 c0 v0 X. inversion X; subst. split; [|discriminate]. intros c1 e1 Y [H|H]; inversion Y; subst; [congruence|].
             destruct c0, c1; cbn in *; congruence.
        * apply BAD'. intros k0 c0 v0 X. inversion X; subst. split; [|discriminate]. intros c1 e1 Y. inversion Y; subst. rewrite TypedProps.kind_eqb_refl in K. discriminate.
      + cbn [add]. destruct (kind_eqb k k') eqn:K; cbn [rbind rmap].
        * apply TypedProps.kind_eqb_iff in K as <-. unfold LineInfo_py. cbn [is_int negb or_empty rbind isinstance_of]. rewrite TypedProps.kind_eqb_refl. cbn [andb rbind rmap].
          exists k, c, v, (x :: e). split; [reflexivity|]. split; [eapply reads_pair; [exact EL|left; discriminate]|].
          unfold describes. repeat match goal with |- _ /\ _ => split end; getc; unfold empty_text; eauto.
        * apply BAD'. intros k0 c0 v0 X. inversion X; subst. split; [|discriminate]. intros c1 e1 Y. inversion Y; subst. rewrite TypedProps.kind_eqb_refl in K. discriminate.
    - cbn [truth rbind]. unfold LineInfo_py. cbn [is_int negb or_empty rbind rmap]. exists k, c, v, []. split; [reflexivity|]. split; [eapply reads_none; exact EL|].
      unfold describes. rewrite app_nil_r. repeat match goal with |- _ /\ _ => split end; getc; unfold empty_text; eauto.
    - destruct (truth (OSeq l)); cbn [add rbind rmap]; [|unfold LineInfo_py; cbn [is_int negb or_empty rbind rmap isinstance_of]]; apply BAD'; intros k0 c0 v0 X; split; discriminate.
    - cbn [truth add rbind rmap]. apply BAD'; intros k0 c0 v0 X; split; discriminate.
    - destruct (truth (OOther bb)); cbn [add rbind rmap]; [|unfold LineInfo_py; cbn [is_int negb or_empty rbind rmap isinstance_of]]; apply BAD'; intros k0 c0 v0 X; split; discriminate.
  Qed.
  (** one value that is, or should be, a string *)
  Lemma string_step self k w o n col : (w = Obj o \/ exists t, w = Tuple t /\ o = OSeq t) ->
    match rmap (fun info => (info, o)) (LineInfo_py subclass self (PObj o) (PInt n) (PInt col) (PObj ONone) (PObj ONone) (PObj (empty_text k)) (PInt 0) (PObj ONone) []) with
    | Ok (info, line) => exists k' c v e, line = OText k' c v /\ reads subclass (StringsShape k) w k' c v e /\ describes info self k' v e n col
    | Err x => rejects subclass (StringsShape k) w x
    end.
  Proof.
    intros W.
    assert (BAD : (forall v, w <> Obj (OText k None v)) -> rejects subclass (StringsShape k) w TypeError).
    { intros H. apply rejects_string. intros k' c v e R. inversion R; subst. eapply H. reflexivity. }
    destruct o as [k' c v| |l|l|bb]; try (cbn [LineInfo_py rmap]; apply BAD; intros v X; destruct W as [->|(t & -> & ?)]; congruence).
    destruct W as [->|(t & -> & ?)]; [|discriminate].
    unfold LineInfo_py. cbn [is_int negb or_empty rbind isinstance_of empty_text]. destruct (kind_eqb k' k) eqn:K; cbn [andb rbind rmap].
    - apply TypedProps.kind_eqb_iff in K as ->. destruct c as [d|]; cbn [rbind rmap].
      + apply BAD. intros v' X. congruence.
      + exists k, None, v, []. split; [reflexivity|]. split; [constructor|]. unfold describes. rewrite app_nil_r. repeat match goal with |- _ /\ _ => split end; getc; unfold empty_text; eauto.
    - apply BAD. intros v' X. inversion X; subst. rewrite TypedProps.kind_eqb_refl in K. discriminate.
  Qed.
  Definition flag_shape (f : pairs_flag) (l : list value) : shape := match f with Unknown => shape_of l | IsPairs => PairsShape | NotPairs k => StringsShape k end.
  Lemma all_steps self fuel : forall l, length (l_rest l) < fuel ->
    iterates subclass self (l_column l) (flag_shape (l_pairs l) (l_rest l)) (l_number l) (l_rest l) (next_all subclass self fuel l).
  Proof.
    induction fuel as [|fuel IH]; intros [rest pairs n col] L; cbn [l_rest length] in L; [lia|]. cbn [next_all]. unfold next_line. cbn [l_rest l_pairs l_number l_column].
    destruct rest as [|w rest]; [constructor|]. cbn [length] in L.
    assert (PAIRS : forall r, r = unpack w -> forall R,
      R = rbind r (fun '(line, end_) => rbind (if truth end_ then add line end_ else Ok line) (fun o => rmap (fun info => (info, line))
        (LineInfo_py subclass self (PObj o) (PInt n) (PInt col) (PObj ONone) (PObj ONone) (PObj end_) (PInt 0) (PObj ONone) []))) ->
      iterates subclass self col PairsShape n (w :: rest)
        (match match R with Err e => (Raises e, mkLines rest IsPairs n col) | Ok (info, line) => (Next info line, mkLines rest IsPairs (n + 1) col) end with (Stop, _) => [] | (r, l) => r :: next_all subclass self fuel l end)).
    { intros r -> R ->. pose proof (pair_step self w n col) as P. destruct (rbind (unpack w) _) as [[info line]|x].
      - destruct P as (k & c & v & e & -> & R & D). eapply it_line; [exact R|exact D|]. apply (IH (mkLines rest IsPairs (n + 1) col)). cbn. lia.
      - apply it_raises; [exact P|]. apply (IH (mkLines rest IsPairs n col)). cbn. lia. }
    assert (STRINGS : forall k o, (w = Obj o \/ exists t, w = Tuple t /\ o = OSeq t) -> forall R,
      R = rmap (fun info => (info, o)) (LineInfo_py subclass self (PObj o) (PInt n) (PInt col) (PObj ONone) (PObj ONone) (PObj (empty_text k)) (PInt 0) (PObj ONone) []) ->
      iterates subclass self col (StringsShape k) n (w :: rest)
        (match match R with Err e => (Raises e, mkLines rest (NotPairs k) n col) | Ok (info, line) => (Next info line, mkLines rest (NotPairs k) (n + 1) col) end with (Stop, _) => [] | (r, l) => r :: next_all subclass self fuel l end)).
    { intros k o W R ->. pose proof (string_step self k w o n col W) as P. destruct (rmap _ _) as [[info line]|x].
      - destruct P as (k' & c & v & e & -> & R & D). eapply it_line; [exact R|exact D|]. apply (IH (mkLines rest (NotPairs k) (n + 1) col)). cbn. lia.
      - apply it_raises; [exact P|]. apply (IH (mkLines rest (NotPairs k) n col)). cbn. lia. }
    destruct pairs as [| |k]; cbn [flag_shape].
    - destruct w as [o|t].
      + assert (S : shape_of (Obj o :: rest) = StringsShape match o with OText KBytes _ _ => KBytes | _ => KStr end) by (destruct o as [[|] ? ?| | | | ]; reflexivity). rewrite S.
        apply (STRINGS _ o); [left; reflexivity|]. cbn [rbind]. reflexivity.
      + cbn [shape_of]. apply (PAIRS (unpack (Tuple t)) eq_refl).
        replace (if length t =? 2 then unpack (Tuple t) else Err ValueError) with (unpack (Tuple t)); [reflexivity|]. destruct t as [|a [|b [|x t]]]; reflexivity.
    - apply (PAIRS (unpack w) eq_refl). reflexivity.
    - destruct w as [o|t]; [apply (STRINGS k o)|apply (STRINGS k (OSeq t))]; eauto.
  Qed.
End C110.

(** For every iterable that is not a str or bytes: the first value decides between strings and pairs; each value gives a line with the next
    number or an exception, whatever came before. *)
Theorem C110_iterable subclass self l n column tab_width :
  exists o, lines_py (Yields l) ONone (PInt n) (PInt column) (PInt tab_width) = Ok o /\
    iterates subclass self column (shape_of l) n l (iterate_lines subclass self o).
Proof. eexists. split; [reflexivity|]. apply (all_steps subclass self _ (mkLines l Unknown n column)). cbn. lia. Qed.
(** The same for a collection or an iterator whose values are objects of the typed model (so never a tuple or a list). *)
Theorem C110_collection subclass self s l n column tab_width : s = OSeq l \/ s = OIter l ->
  exists o, lines_py (Given s) ONone (PInt n) (PInt column) (PInt tab_width) = Ok o /\
    iterates subclass self column (shape_of (map Obj l)) n (map Obj l) (iterate_lines subclass self o).
Proof. intros [-> | ->]; eexists; (split; [reflexivity|]); apply (all_steps subclass self _ (mkLines (map Obj l) Unknown n column)); cbn; lia. Qed.
(** Nothing else can be the result. *)
Theorem C110_deterministic subclass self column sh n l : forall rs rs', iterates subclass self column sh n l rs -> iterates subclass self column sh n l rs' ->
  Forall2 (fun r r' => match r, r' with
                       | Next info line, Next info' line' => line = line' /\ forall name, In name [u "lines"; u "line_number"; u "column_number"; u "leading"; u "trailing"; u "indent"; u "match"] -> get info name = get info' name
                       | Raises e, Raises e' => e = e'
                       | _, _ => False
                       end) rs rs'.
Proof.
  assert (DET : forall w a b, elements w a -> elements w b -> a = b) by (intros w a b A B; apply elements_iterate in A, B; congruence).
  assert (RR : forall sh w k c v e k' c' v' e', reads subclass sh w k c v e -> reads subclass sh w k' c' v' e' -> k = k' /\ c = c' /\ v = v').
  { intros sh0 w k c v e k' c' v' e' A B. destruct A as [k v|w k c v d e E O|w k c v E]; inversion B as [|? ? ? ? d' ? E' O'|? ? ? ? E']; subst; auto;
      pose proof (DET _ _ _ E E') as X; inversion X; auto. }
  assert (RJ : forall sh w k c v e x, reads subclass sh w k c v e -> rejects subclass sh w x -> False).
  { intros sh0 w k c v e x A B. destruct B as [w l' E L|w U|w l' E L N|k0 w N].
    - inversion A as [|? ? ? ? ? ? E' ?|? ? ? ? E']; subst; pose proof (DET _ _ _ E E') as X; subst; apply L; reflexivity.
    - inversion A as [|? ? ? ? ? ? E' ?|? ? ? ? E']; subst; exact (U _ E').
    - exact (N _ _ _ _ A).
    - exact (N _ _ _ _ A). }
  assert (JJ : forall sh w x y, rejects subclass sh w x -> rejects subclass sh w y -> x = y).
  { intros sh0 w x y A B. destruct A as [w l' E L|w U|w l' E L N|k0 w N]; inversion B as [? l'' E' L' |? U'|? l'' E' L' N'|? ? N']; subst; auto.
    - destruct (U' _ E).
    - pose proof (DET _ _ _ E E'); subst; congruence.
    - destruct (U _ E').
    - pose proof (DET _ _ _ E E'); subst; congruence. }
  revert n. induction l as [|w l IH]; intros n rs rs' A B; inversion A as [|? ? ? info k c line e rs0 R D T|? ? ? x rs0 J T]; inversion B as [|? ? ? info' k' c' line' e' rs0' R' D' T'|? ? ? x' rs0' J' T']; subst; constructor;
    try (exfalso; eapply RJ; eassumption); try (eapply IH; eassumption).
  - destruct (RR _ _ _ _ _ _ _ _ _ _ R R') as (<- & <- & <-). split; [reflexivity|]. intros name I.
    destruct D as (d1 & _ & d2 & d3 & d4 & d5 & _ & d6 & d7), D' as (d1' & _ & d2' & d3' & d4' & d5' & _ & d6' & d7').
    repeat (destruct I as [<-|I]; [congruence|]). destruct I.
  - eapply JJ; eassumption.
Qed.

Lemma linebreaks_truth k : truth (OSeq (map (OText k None) (linebreaks_of (is_bytes_kind k)))) = true.
Proof. destruct k; reflexivity. Qed.
Lemma linebreaks_stand k : stands_for k (OSeq (map (OText k None) (linebreaks_of (is_bytes_kind k)))) (linebreaks_of (is_bytes_kind k)).
Proof. apply of_seq; [destruct k; discriminate|]. induction (linebreaks_of (is_bytes_kind k)); constructor; eauto. Qed.
Lemma linebreaks_nonempty k : ~ In [] (linebreaks_of (is_bytes_kind k)).
Proof.
  assert (H : forallb (fun s => negb (is_nil s)) (linebreaks_of (is_bytes_kind k)) = true) by (destruct k; vm_compute; reflexivity).
  intros I. rewrite forallb_forall in H. specialize (H _ I). discriminate.
Qed.
(** the separators that lines() uses: None stands for line breaks, as does anything false *)
Definition line_separators (k : kind) (o : obj) (seps : option (list str)) : Prop :=
  truth o = false /\ seps = None \/ ~ iterator o /\ exists l, stands_for k o l /\ ~ In [] l /\ seps = Some l.
Lemma stands_truth k o l : stands_for k o l -> truth o = true.
Proof. intros [c v N|l' s N F|l' s N F]; cbn [truth]; [destruct v|destruct l'|]; try congruence; reflexivity. Qed.
Lemma shows_all subclass self k column l : forall n,
  Forall (fun p : str * str => True) l ->
  Forall2 (shows self k) (next_all subclass self (S (length l)) (mkLines (map (fun p => Tuple [OText k None (fst p); OText k None (snd p)]) l) IsPairs n column)) (number_lines column n l).
Proof.
  induction l as [|[a b] l IH]; intros n _; [constructor|]. cbn [length map]. cbn [next_all]. unfold next_line. cbn [l_rest l_pairs l_number l_column fst snd].
  cbn [unpack iterate_value rbind]. 
  assert (E : exists info, rbind (if truth (OText k None b) then add (OText k None a) (OText k None b) else Ok (OText k None a)) (fun original_line => rmap (fun info => (info, OText k None a))
     (LineInfo_py subclass self (PObj original_line) (PInt n) (PInt column) (PObj ONone) (PObj ONone) (PObj (OText k None b)) (PInt 0) (PObj ONone) [])) = Ok (info, OText k None a) /\ describes info self k a b n column).
  { destruct b as [|x b]; cbn [truth is_nil negb add rbind]; rewrite ?TypedProps.kind_eqb_refl; cbn [rbind]; unfold LineInfo_py; cbn [is_int negb or_empty rbind isinstance_of]; rewrite TypedProps.kind_eqb_refl; cbn [andb rbind rmap];
      eexists; (split; [reflexivity|]); unfold describes; rewrite ?app_nil_r; repeat match goal with |- _ /\ _ => split end; getc; unfold empty_text; eauto. }
  destruct E as (info & E & D). cbn [length] in IH. rewrite E. cbn [number_lines]. constructor.
  - exists info, None. unfold new_info. cbn [fst snd i_line i_end i_leading i_trailing i_indent i_number i_column]. split; [reflexivity|]. split; [destruct b; [now rewrite app_nil_r|reflexivity]|]. auto.
  - apply IH. clear. induction l; constructor; auto.
Qed.
Lemma strings_all subclass self k column l : forall n,
  Forall2 (shows self k) (next_all subclass self (S (length l)) (mkLines (map (fun s => Obj (OText k None s)) l) (NotPairs k) n column)) (number_lines column n (map (fun s => (s, [])) l)).
Proof.
  induction l as [|a l IH]; intros n; [constructor|]. cbn [length map]. cbn [next_all]. unfold next_line. cbn [l_rest l_pairs l_number l_column rbind].
  unfold LineInfo_py, empty_text at 1. cbn [is_int negb or_empty rbind isinstance_of]. rewrite TypedProps.kind_eqb_refl. cbn [andb rbind rmap number_lines]. constructor.
  - eexists _, None. unfold new_info. cbn [fst snd is_nil i_line i_end i_leading i_trailing i_indent i_number i_column]. split; [reflexivity|]. rewrite app_nil_r. repeat (split; [reflexivity|]).
    unfold describes. rewrite app_nil_r. repeat match goal with |- _ /\ _ => split end; getc; unfold empty_text; eauto.
  - apply IH.
Qed.

(** A str or bytes, or an instance of a subclass, with any separators that multisplit allows: the lines are those of C41 to C44. *)
Theorem C110_text subclass self k c v o seps n column tab_width : line_separators k o seps ->
  exists obj ps, lines_py (Given (OText k c v)) o (PInt n) (PInt column) (PInt tab_width) = Ok obj /\
    lines (is_bytes_kind k) column (Text v seps) n = Ok ps /\ Forall2 (shows self k) (iterate_lines subclass self obj) ps.
Proof.
  intros L. cbn [lines_py].
  set (o' := if truth o then o else _). assert (U : exists l, uses k o' l /\ ~ iterator o' /\ l = match seps with None | Some [] => linebreaks_of (is_bytes_kind k) | Some l => l end).
  { destruct L as [(T & ->)|(NI & l & S & N & ->)]; subst o'.
    - rewrite T. exists (linebreaks_of (is_bytes_kind k)). split; [left; split; [apply linebreaks_stand|apply linebreaks_nonempty]|]. split; [intros (l & X); discriminate|reflexivity].
    - rewrite (stands_truth _ _ _ S). exists l. split; [left; auto|]. split; [exact NI|]. destruct l; [|reflexivity]. exfalso. inversion S as [? w H|? ? H F|? ? H F]; subst; [destruct w; discriminate || congruence|inversion F; subst; congruence|inversion F; subst; congruence]. }
  destruct U as (l & U & NI & El). destruct (C104_multisplit k c v o' l AsPairs (Some (-1)%Z) false true StripFalse U NI) as (items & E & E' & P).
  rewrite E. cbn [rmap]. eexists. eexists. split; [reflexivity|]. unfold lines. rewrite <- El, E'. split; [reflexivity|].
  set (ps := flat_map _ (map untyped items)). unfold iterate_lines. cbn [l_rest].
  assert (Q : pairs_of items = map (fun p => Tuple [OText k None (fst p); OText k None (snd p)]) ps).
  { subst ps. unfold pairs_of. assert (PL : forall i p, In i items -> In p (parts i) -> plain k p). { intros i p I J. destruct (P i p I J) as (Lk & Pl). destruct c as [d|]; [|apply Pl; auto].
        destruct v as [|x v]; [|apply Pl; right; split; [discriminate|discriminate]].
        clear - E I J. unfold multisplit_py in E. destruct (split_separators k o'); [|discriminate]. cbn [rbind] in E. inversion E; subst. unfold yields in I.
        eapply typed_parts; eassumption. }
    clear - PL. induction items as [|i items IH]; [reflexivity|]. cbn [map flat_map]. rewrite map_app, IH by (intros; eapply PL; [right|]; eassumption). f_equal.
    destruct i as [x|a b]; [reflexivity|]. destruct (PL (OTwo a b) a) as (va & ->); [left; reflexivity|left; reflexivity|]. destruct (PL (OTwo (OText k None va) b) b) as (vb & ->); [left; reflexivity|right; left; reflexivity|]. reflexivity. }
  rewrite Q, map_length. apply shows_all. clear. induction ps; constructor; auto.
Qed.
(** An iterable of str, or of bytes; of tuples or lists of two. *)
Theorem C110_strings subclass self k l n column tab_width : 
  exists obj ps, lines_py (Yields (map (fun s => Obj (OText k None s)) l)) ONone (PInt n) (PInt column) (PInt tab_width) = Ok obj /\
    lines (is_bytes_kind k) column (Strings l) n = Ok ps /\ Forall2 (shows self k) (iterate_lines subclass self obj) ps.
Proof.
  eexists. eexists. split; [reflexivity|]. split; [reflexivity|]. unfold iterate_lines. cbn [l_rest]. rewrite map_length.
  destruct l as [|a l]; [constructor|]. pose proof (strings_all subclass self k column (a :: l) n) as H.
  replace (next_all subclass self (S (length (a :: l))) (mkLines (map (fun s => Obj (OText k None s)) (a :: l)) Unknown n column))
    with (next_all subclass self (S (length (a :: l))) (mkLines (map (fun s => Obj (OText k None s)) (a :: l)) (NotPairs k) n column)); [exact H|].
  destruct k; reflexivity.
Qed.
Theorem C110_pairs subclass self k l n column tab_width : 
  exists obj ps, lines_py (Yields (map (fun p => Tuple [OText k None (fst p); OText k None (snd p)]) l)) ONone (PInt n) (PInt column) (PInt tab_width) = Ok obj /\
    lines (is_bytes_kind k) column (Pairs l) n = Ok ps /\ Forall2 (shows self k) (iterate_lines subclass self obj) ps.
Proof.
  eexists. eexists. split; [reflexivity|]. split; [reflexivity|]. unfold iterate_lines. cbn [l_rest]. rewrite map_length.
  destruct l as [|a l]; [constructor|]. apply (shows_all subclass self k column (a :: l) n). clear. induction (a :: l); constructor; auto.
Qed.
(** The exceptions of the constructor. *)
Theorem C110_errors s o n column tab_width e :
  lines_py s o n column tab_width = Err e <->
  (is_int n && is_int column && is_int tab_width = false /\ e = TypeError) \/
  (is_int n && is_int column && is_int tab_width = true /\
   ((exists k c v, s = Given (OText k c v) /\ truth o = true /\ wrong_for_split k o e) \/
    ((forall k c v, s <> Given (OText k c v)) /\ o <> ONone /\ e = ValueError) \/
    (o = ONone /\ (s = Given ONone \/ exists b, s = Given (OOther b)) /\ e = TypeError))).
Proof.
  destruct n as [n0|n|n0|n0|n0], column as [c0|column|c0|c0|c0], tab_width as [t0|tab|t0|t0|t0];
    try (cbn [lines_py is_int andb]; split; [intros X; inversion X; left; auto|intros [(_ & ->)|(X & _)]; [reflexivity|discriminate]]).
  cbn [lines_py is_int andb].
  transitivity ((exists k c v, s = Given (OText k c v) /\ truth o = true /\ wrong_for_split k o e) \/ ((forall k c v, s <> Given (OText k c v)) /\ o <> ONone /\ e = ValueError) \/ (o = ONone /\ (s = Given ONone \/ exists b, s = Given (OOther b)) /\ e = TypeError)).
  2:{ split; [auto|intros [(X & _)|(_ & X)]; [discriminate|exact X]]. }
  destruct s as [s|l].
  - destruct s as [k c v| |l|l|b].
    + transitivity (truth o = true /\ wrong_for_split k o e).
      * destruct (truth o) eqn:T.
        -- destruct (multisplit_py k c v o AsPairs (Some (-1)%Z) false true StripFalse) as [r|e'] eqn:M; cbn [rmap].
           ++ split; [discriminate|]. intros (_ & W). assert (X : multisplit_py k c v o AsPairs (Some (-1)%Z) false true StripFalse = Err e) by (apply C104_multisplit_errors; auto). congruence.
           ++ apply C104_multisplit_errors in M as M'. destruct M' as [W|(X & _)]; [|congruence]. split; [intros Q; inversion Q; subst; auto|].
              intros (_ & W'). assert (X : multisplit_py k c v o AsPairs (Some (-1)%Z) false true StripFalse = Err e) by (apply C104_multisplit_errors; auto). congruence.
        -- split; [|intros (X & _); discriminate]. intros X. exfalso.
           destruct (C104_multisplit k c v _ _ AsPairs (Some (-1)%Z) false true StripFalse (or_introl (conj (linebreaks_stand k) (linebreaks_nonempty k))) ltac:(intros (l & Y); discriminate)) as (r & E & _).
           rewrite E in X. discriminate.
      * split; [intros (A & B); left; exists k, c, v; auto|]. intros [(k0 & c1 & v1 & X & A1)|[(X & _)|(_ & [X|(b & X)] & _)]]; [inversion X; subst; exact A1|destruct (X k c v eq_refl)|discriminate|discriminate].
    + destruct o; cbn [is_none iterate rmap]; (split; [intros X; inversion X; subst|intros [(k' & c' & v' & X & _)|[(_ & Y & ->)|(Y & _ & ->)]]; try discriminate; try congruence; try reflexivity]);
        try (right; left; split; [discriminate|split; [discriminate|reflexivity]]). right; right. auto.
    + destruct o; cbn [is_none iterate rmap]; (split; [intros X; inversion X; subst|intros [(k' & c' & v' & X & _)|[(_ & Y & ->)|(Y & [Z|(b0 & Z)] & ->)]]; try discriminate; try congruence; try reflexivity]);
        right; left; (split; [discriminate|split; [discriminate|reflexivity]]).
    + destruct o; cbn [is_none iterate rmap]; (split; [intros X; inversion X; subst|intros [(k' & c' & v' & X & _)|[(_ & Y & ->)|(Y & [Z|(b0 & Z)] & ->)]]; try discriminate; try congruence; try reflexivity]);
        right; left; (split; [discriminate|split; [discriminate|reflexivity]]).
    + destruct o; cbn [is_none iterate rmap]; (split; [intros X; inversion X; subst|intros [(k' & c' & v' & X & _)|[(_ & Y & ->)|(Y & _ & ->)]]; try discriminate; try congruence; try reflexivity]);
        try (right; left; split; [discriminate|split; [discriminate|reflexivity]]). right; right. eauto.
  - destruct o; cbn [is_none]; (split; [intros X; inversion X; subst|intros [(k' & c' & v' & X & _)|[(_ & Y & ->)|(Y & [Z|(b0 & Z)] & ->)]]; try discriminate; try congruence; try reflexivity]);
      right; left; (split; [discriminate|split; [discriminate|reflexivity]]).
Qed.
Print Assumptions C110_iterable. Print Assumptions C110_collection. Print Assumptions C110_deterministic. Print Assumptions C110_text. Print Assumptions C110_strings. Print Assumptions C110_pairs. Print Assumptions C110_errors.
(** A string of two characters among pairs is taken for one; a string of a subclass is rejected, although a subclass of str is allowed as s. *)
Theorem C110_mixed_pairs subclass self : exists info,
  iterate_lines subclass self (mkLines [Tuple [OText KStr None (u "x"); OText KStr None [10%N]]; Obj (OText KStr None (u "ab"))] Unknown 1 1) =
    [Next [(u "lines", self); (u "line", PObj (OText KStr None (u "x" ++ [10%N]))); (u "line_number", PInt 1); (u "column_number", PInt 1); (u "leading", PObj (empty_text KStr));
           (u "trailing", PObj (empty_text KStr)); (u "end", PObj (OText KStr None [10%N])); (u "indent", PInt 0); (u "match", PObj ONone); (u "_is_bytes", PInt 0); (u "_empty", PObj (empty_text KStr))] (OText KStr None (u "x"));
     Next info (OText KStr None (u "a"))] /\ get info (u "end") = Some (PObj (OText KStr None (u "b"))).
Proof. eexists. split; reflexivity. Qed.
Theorem C110_subclass_in_iterable subclass self : exists info,
  iterate_lines subclass self (mkLines [Obj (OText KStr (Some 1) (u "ab")); Obj (OText KStr None (u "cd"))] Unknown 1 1) = [Raises TypeError; Next info (OText KStr None (u "cd"))] /\
  get info (u "line_number") = Some (PInt 1).
Proof. eexists. split; reflexivity. Qed.
Example C110_nonvacuous : exists o, lines_py (Given (OText KBytes (Some 1) (u "a" ++ [10%N] ++ u "b"))) (OSeq []) (PInt 5) (PInt 1) (PInt 8) = Ok o /\ l_rest o = [Tuple [OText KBytes None (u "a"); OText KBytes None [10%N]]; Tuple [OText KBytes None (u "b"); empty_text KBytes]].
Proof. eexists. split; vm_compute; reflexivity. Qed.
Example C110_nonvacuous_mixed subclass : exists info rs,
  iterate_lines subclass (PLines 0) (mkLines [Obj (OText KStr None (u "ab")); Obj (OText KBytes None (u "ab")); Tuple [OText KStr None (u "a"); empty_text KStr]; Obj (OOther true); Obj (OText KStr None [])] Unknown 7 1) =
  Next info (OText KStr None (u "ab")) :: Raises TypeError :: Raises TypeError :: Raises TypeError :: rs /\ length rs = 1.
Proof. eexists. eexists. split; reflexivity. Qed.

(** ** C111 *)
(** the names of the parameters, which keyword arguments cannot have *)
Definition parameters : list str := [u "lines"; u "line"; u "line_number"; u "column_number"; u "leading"; u "trailing"; u "end"; u "indent"; u "match"].
(** None stands for an empty string *)
Definition text_arg (subclass : nat -> nat -> bool) (k : kind) (c : option nat) (v r : pyval) : Prop :=
  v = PObj ONone /\ r = PObj (OText k None []) \/ exists c' w, v = PObj (OText k c' w) /\ instance subclass c' c /\ r = v.
Lemma or_empty_spec subclass k c v r : or_empty subclass k c v = r <-> match r with Ok w => text_arg subclass k c v w | Err e => e = TypeError /\ forall w, ~ text_arg subclass k c v w end.
Proof.
  assert (T : match or_empty subclass k c v with Ok w => text_arg subclass k c v w | Err e => e = TypeError /\ forall w, ~ text_arg subclass k c v w end).
  { destruct v as [[k' c' w| |l|l|b]|z|n|n|n]; cbn [or_empty isinstance_of]; try (split; [reflexivity|]; intros w' [(X & _)|(? & ? & X & _)]; discriminate); [|left; auto].
    destruct (kind_eqb k k') eqn:K; cbn [andb].
    - apply TypedProps.kind_eqb_iff in K as <-. destruct (match c, c' with None, _ => true | Some d, Some d' => subclass d' d | Some _, None => false end) eqn:C.
      + right. exists c', w. split; [reflexivity|]. split; [|reflexivity]. destruct c, c'; cbn; auto; discriminate.
      + split; [reflexivity|]. intros w' [(X & _)|(d & w1 & X & I & _)]; [discriminate|]. inversion X; subst. destruct c, d; cbn in *; congruence.
    - split; [reflexivity|]. intros w' [(X & _)|(d & w1 & X & I & _)]; [discriminate|]. inversion X; subst. rewrite TypedProps.kind_eqb_refl in K. discriminate. }
  split; [intros <-; exact T|]. destruct (or_empty subclass k c v) as [w|e], r as [w'|e']; intros R.
  - f_equal. destruct T as [(-> & ->)|(c1 & w1 & -> & _ & ->)], R as [(X & ->)|(c2 & w2 & X & _ & ->)]; congruence.
  - exfalso. destruct R as (_ & R). exact (R _ T).
  - exfalso. destruct T as (_ & T). exact (T _ R).
  - destruct T as (-> & _), R as (-> & _). reflexivity.
Qed.
Lemma get_app a b name : get (a ++ b) name = match get a name with Some v => Some v | None => get b name end.
Proof. induction a as [|[n v] a IH]; cbn [get app]; [reflexivity|]. destruct (str_eqb n name); [reflexivity|exact IH]. Qed.

(** When LineInfo(...) succeeds, and what the attributes are. *)
Theorem C111_attributes subclass lines line line_number column_number leading trailing end_ indent match_ kwargs d :
  (forall name, In name parameters -> get kwargs name = None) ->
  LineInfo_py subclass lines line line_number column_number leading trailing end_ indent match_ kwargs = Ok d ->
  exists k c v leading' trailing' end', line = PObj (OText k c v) /\ is_int line_number && is_int column_number && is_int indent = true /\
    (match_ = PObj ONone \/ exists n, match_ = PPattern n) /\
    text_arg subclass k c leading leading' /\ text_arg subclass k c trailing trailing' /\ text_arg subclass k c end_ end' /\
    map (get d) parameters = map Some [lines; line; line_number; column_number; leading'; trailing'; end'; indent; match_] /\
    forall name w, get kwargs name = Some w -> get d name = Some w.
Proof.
  intros P. unfold LineInfo_py. destruct line as [[k c v| |l|l|b]|z|n|n|n]; try discriminate.
  destruct (is_int line_number); cbn [negb]; [|discriminate]. destruct (is_int column_number); cbn [negb]; [|discriminate]. destruct (is_int indent); cbn [negb]; [|discriminate].
  destruct (or_empty subclass k c leading) as [lead|?] eqn:E1; cbn [rbind]; [|discriminate]. destruct (or_empty subclass k c trailing) as [trail|?] eqn:E2; cbn [rbind]; [|discriminate].
  destruct (or_empty subclass k c end_) as [en|?] eqn:E3; cbn [rbind]; [|discriminate]. apply or_empty_spec in E1, E2, E3.
  assert (MM : forall D : attrs, (match match_ with PObj ONone | PPattern _ => Ok D | _ => Err TypeError end) = Ok d -> D = d /\ (match_ = PObj ONone \/ exists n, match_ = PPattern n)).
  { intros D. destruct match_ as [[| | | |]|z|n|n|n]; try discriminate; intros [= ->]; eauto. }
  intros H. apply MM in H as (<- & M). exists k, c, v, lead, trail, en. repeat (split; [auto; fail|]). split.
  - unfold parameters in *. cbn [map]. rewrite !get_app. rewrite !P by (cbn; tauto). getc. reflexivity.
  - intros name w G. rewrite get_app, G. reflexivity.
Qed.
Theorem C111_accepts subclass lines line line_number column_number leading trailing end_ indent match_ kwargs k c v leading' trailing' end' :
  line = PObj (OText k c v) -> is_int line_number && is_int column_number && is_int indent = true -> (match_ = PObj ONone \/ exists n, match_ = PPattern n) ->
  text_arg subclass k c leading leading' -> text_arg subclass k c trailing trailing' -> text_arg subclass k c end_ end' ->
  exists d, LineInfo_py subclass lines line line_number column_number leading trailing end_ indent match_ kwargs = Ok d.
Proof.
  intros -> I M A B C. apply andb_prop in I as (I & I3). apply andb_prop in I as (I1 & I2). unfold LineInfo_py. rewrite I1, I2, I3. cbn [negb].
  rewrite (proj2 (or_empty_spec subclass k c leading (Ok leading')) A), (proj2 (or_empty_spec subclass k c trailing (Ok trailing')) B), (proj2 (or_empty_spec subclass k c end_ (Ok end')) C). cbn [rbind].
  destruct M as [->|(n & ->)]; eexists; reflexivity.
Qed.
Theorem C111_errors subclass lines line line_number column_number leading trailing end_ indent match_ kwargs e :
  LineInfo_py subclass lines line line_number column_number leading trailing end_ indent match_ kwargs = Err e -> e = TypeError.
Proof.
  unfold LineInfo_py. destruct line as [[k c v| |l|l|b]|z|n|n|n]; try congruence.
  destruct (is_int line_number); cbn [negb]; [|congruence]. destruct (is_int column_number); cbn [negb]; [|congruence]. destruct (is_int indent); cbn [negb]; [|congruence].
  destruct (or_empty subclass k c leading) as [lead|?] eqn:E1; cbn [rbind]; [|apply or_empty_spec in E1 as (-> & _); congruence]. destruct (or_empty subclass k c trailing) as [trail|?] eqn:E2; cbn [rbind]; [|apply or_empty_spec in E2 as (-> & _); congruence].
  destruct (or_empty subclass k c end_) as [en|?] eqn:E3; cbn [rbind]; [|apply or_empty_spec in E3 as (-> & _); congruence].
  destruct match_ as [[| | | |]|z|n|n|n]; congruence.
Qed.
(** "match is the re.Match object that matched this line" - which the constructor rejects *)
Theorem C111_match_refuted subclass lines line line_number column_number leading trailing end_ indent m kwargs :
  LineInfo_py subclass lines line line_number column_number leading trailing end_ indent (PMatch m) kwargs = Err TypeError.
Proof.
  destruct (LineInfo_py subclass lines line line_number column_number leading trailing end_ indent (PMatch m) kwargs) as [d|e] eqn:E; [|apply C111_errors in E; congruence].
  exfalso. unfold LineInfo_py in E. destruct line as [[k c v| |l|l|b]|z|n|n|n]; try discriminate.
  destruct (is_int line_number); cbn [negb] in E; [|discriminate]. destruct (is_int column_number); cbn [negb] in E; [|discriminate]. destruct (is_int indent); cbn [negb] in E; [|discriminate].
  destruct (or_empty subclass k c leading); cbn [rbind] in E; [|discriminate]. destruct (or_empty subclass k c trailing); cbn [rbind] in E; [|discriminate]. destruct (or_empty subclass k c end_); cbn [rbind] in E; discriminate.
Qed.
Example C111_nonvacuous : exists d, LineInfo_py Nat.eqb (PLines 0) (PObj (OText KBytes (Some 1) (u "ab"))) (PInt 3) (PInt 1) (PObj (OText KBytes (Some 1) (u "x"))) (PObj ONone) (PObj ONone) (PInt 0) (PPattern 4) [(u "colour", PInt 9)] = Ok d /\
  get d (u "colour") = Some (PInt 9) /\ get d (u "trailing") = Some (PObj (OText KBytes None [])) /\
  LineInfo_py Nat.eqb (PLines 0) (PObj (OText KBytes (Some 1) (u "ab"))) (PInt 3) (PInt 1) (PObj (OText KBytes None (u "x"))) (PObj ONone) (PObj ONone) (PInt 0) (PPattern 4) [] = Err TypeError.
Proof. eexists. repeat split; reflexivity. Qed.

(** == is an equivalence: the same class and the same attributes *)
Theorem C111_equal subclass same a b : (forall x, subclass x x = true) -> (forall x y, subclass x y = true -> subclass y x = true -> x = y) ->
  info_eq subclass same a b = true <->
  fst a = fst b /\ forall name, match get (snd b) name, get (snd a) name with Some x, Some y => same x y = true | None, None => True | _, _ => False end.
Proof.
  intros R AS.
  assert (D : forall p q, dict_eq same p q = true <-> forall name, match get p name, get q name with Some x, Some y => same x y = true | None, None => True | _, _ => False end).
  { intros p q. unfold dict_eq. rewrite forallb_forall. split.
    - intros H name. assert (NG : forall (d : attrs), ~ In name (map fst d) -> get d name = None).
      { intros d. induction d as [|[n v] d IH]; cbn [map In get fst]; [reflexivity|]. intros N. destruct (str_eqb n name) eqn:E; [apply str_eqb_eq in E; tauto|apply IH; tauto]. }
      destruct (get p name) as [x|] eqn:GP, (get q name) as [y|] eqn:GQ; auto.
      + specialize (H name). rewrite GP, GQ in H. apply H. apply in_or_app. left. destruct (in_dec (list_eq_dec N.eq_dec) name (map fst p)) as [I|I]; [exact I|]. rewrite NG in GP by exact I. discriminate.
      + specialize (H name). rewrite GP, GQ in H. enough (false = true) by discriminate. apply H. apply in_or_app. left. destruct (in_dec (list_eq_dec N.eq_dec) name (map fst p)) as [I|I]; [exact I|]. rewrite NG in GP by exact I. discriminate.
      + specialize (H name). rewrite GP, GQ in H. enough (false = true) by discriminate. apply H. apply in_or_app. right. destruct (in_dec (list_eq_dec N.eq_dec) name (map fst q)) as [I|I]; [exact I|]. rewrite NG in GQ by exact I. discriminate.
    - intros H name _. specialize (H name). destruct (get p name), (get q name); auto; destruct H. }
  unfold info_eq, info_eq_method. destruct a as [ca da], b as [cb db]. cbn [fst snd]. destruct (subclass cb ca && negb (ca =? cb)) eqn:S.
  - apply andb_prop in S as (S1 & S2). apply negb_true_iff, Nat.eqb_neq in S2. split.
    + intros H. apply andb_prop in H as (H & _). destruct S2. apply AS; assumption.
    + intros (H & _). contradiction.
  - split.
    + intros H. apply andb_prop in H as (H & H'). rewrite H in S. cbn [andb] in S. apply negb_false_iff, Nat.eqb_eq in S. split; [exact S|]. apply D, H'.
    + intros (<- & H). rewrite R. apply D. exact H.
Qed.
Theorem C111_equivalence subclass same : (forall x, subclass x x = true) -> (forall x y, subclass x y = true -> subclass y x = true -> x = y) ->
  (forall x, same x x = true) -> (forall x y, same x y = true -> same y x = true) -> (forall x y z, same x y = true -> same y z = true -> same x z = true) ->
  (forall a, info_eq subclass same a a = true) /\ (forall a b, info_eq subclass same a b = info_eq subclass same b a) /\
  (forall a b c, info_eq subclass same a b = true -> info_eq subclass same b c = true -> info_eq subclass same a c = true).
Proof.
  intros R AS S1 S2 S3.
  assert (SY : forall a b, info_eq subclass same a b = true -> info_eq subclass same b a = true).
  { intros a b. rewrite !C111_equal by assumption. intros (-> & H). split; [reflexivity|]. intros name. specialize (H name). destruct (get (snd b) name), (get (snd a) name); auto. }
  split; [|split].
  - intros a. apply C111_equal; [exact R|exact AS|]. split; [reflexivity|]. intros name. destruct (get (snd a) name); auto.
  - intros a b. destruct (info_eq subclass same a b) eqn:E; [symmetry; apply SY, E|]. destruct (info_eq subclass same b a) eqn:E'; [|reflexivity]. apply SY in E'. congruence.
  - intros a b c. rewrite !C111_equal by assumption. intros (-> & H) (-> & H'). split; [reflexivity|]. intros name. specialize (H name). specialize (H' name).
    destruct (get (snd b) name), (get (snd a) name), (get (snd c) name); try contradiction; eauto.
Qed.
Print Assumptions C111_attributes. Print Assumptions C111_accepts. Print Assumptions C111_errors. Print Assumptions C111_match_refuted. Print Assumptions C111_equal. Print Assumptions C111_equivalence.

(** ** C113 *)
Definition text_value (o : obj) : str := match o with OText _ _ v => v | _ => [] end.
(** On lines of the type of the pattern: exactly the lines with (invert: without) a match, in their order; the attribute that was named holds the match (None), all other attributes are as before. *)
Theorem C113_lines_grep identifier k search name invert l up : identifier name = true -> Forall (fun x => exists c v, snd x = OText k c v) l ->
  exists ys, lines_grep_py identifier k search name invert l up = Ok (ys, up) /\
    Forall2 (fun x y => snd y = snd x /\ get (fst y) name = Some (match search (text_value (snd x)) with Some m => PMatch m | None => PObj ONone end) /\
                        forall name', name' <> name -> get (fst y) name' = get (fst x) name')
      (filter (fun x => match search (text_value (snd x)) with Some _ => negb invert | None => invert end) l) ys.
Proof.
  intros I F. unfold lines_grep_py. rewrite I.
  assert (G : exists ys, grep_loop k search name invert l up = (ys, up) /\
    Forall2 (fun x y => snd y = snd x /\ get (fst y) name = Some (match search (text_value (snd x)) with Some m => PMatch m | None => PObj ONone end) /\
                        forall name', name' <> name -> get (fst y) name' = get (fst x) name')
      (filter (fun x => match search (text_value (snd x)) with Some _ => negb invert | None => invert end) l) ys).
  { induction F as [|[info o] l (c & v & E) F (ys & IH & H)]; [exists []; split; [reflexivity|constructor]|]. cbn [snd] in E. subst o. cbn [grep_loop]. rewrite TypedProps.kind_eqb_refl. cbn [filter snd text_value].
    assert (S : forall w, get (set info name w) name = Some w) by (intros w; unfold set; cbn [get]; rewrite (proj2 (str_eqb_eq name name) eq_refl); reflexivity).
    assert (O : forall w name', name' <> name -> get (set info name w) name' = get info name').
    { intros w name' N. unfold set. cbn [get]. destruct (str_eqb name name') eqn:E; [apply str_eqb_eq in E; congruence|reflexivity]. }
    destruct (search v) as [m|] eqn:SV, invert; cbn [negb]; rewrite IH.
    - exists ys. auto.
    - eexists. split; [reflexivity|]. constructor; [|exact H]. cbn [snd fst text_value]. rewrite SV. auto.
    - eexists. split; [reflexivity|]. constructor; [|exact H]. cbn [snd fst text_value]. rewrite SV. auto.
    - exists ys. auto. }
  destruct G as (ys & -> & H). eauto.
Qed.
Theorem C113_errors identifier k search name invert l up : identifier name = false -> lines_grep_py identifier k search name invert l up = Err ValueError.
Proof. intros E. unfold lines_grep_py. now rewrite E. Qed.
(** a line of the other type raises TypeError, after the lines before it *)
Theorem C113_wrong_type identifier k search name invert l x l' up : identifier name = true -> Forall (fun x => exists c v, snd x = OText k c v) l -> foreign k (snd x) ->
  exists ys, lines_grep_py identifier k search name invert (l ++ x :: l') up = Ok (ys, Some TypeError) /\ lines_grep_py identifier k search name invert l up = Ok (ys, up).
Proof.
  intros I F X. unfold lines_grep_py. rewrite I.
  assert (G : exists ys, grep_loop k search name invert (l ++ x :: l') up = (ys, Some TypeError) /\ grep_loop k search name invert l up = (ys, up)).
  { induction F as [|[info o] l (c & v & E) F (ys & IH & H)].
    - exists []. split; [|reflexivity]. destruct x as [info o]. cbn [app grep_loop snd] in *. destruct o as [k' c v| | | |]; try reflexivity. destruct (kind_eqb k k') eqn:K; [|reflexivity].
      apply TypedProps.kind_eqb_iff in K as <-. destruct (X c v eq_refl).
    - cbn [snd] in E. subst o. cbn [app grep_loop]. rewrite TypedProps.kind_eqb_refl. destruct (search v), invert; rewrite IH, H; unfold yield_; eexists; (split; reflexivity). }
  destruct G as (ys & -> & ->). eauto.
Qed.
Example C113_nonvacuous : lines_grep_py (fun _ => true) KStr (fun v => if contains (u "a") v then Some 7 else None) (u "match") false
  [([(u "line_number", PInt 1)], OText KStr None (u "xa")); ([(u "line_number", PInt 2)], OText KStr None (u "xb"))] None =
  Ok ([([(u "match", PMatch 7); (u "line_number", PInt 1)], OText KStr None (u "xa"))], None).
Proof. reflexivity. Qed.
Print Assumptions C113_lines_grep. Print Assumptions C113_errors. Print Assumptions C113_wrong_type.
