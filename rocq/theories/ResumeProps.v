(** Parsing a text in parts, the state carried over: the property C125. *)
From Verif Require Import PyStr DelimModel DelimSpec ResumeSpec ResumeProof ResumeProof2 ResumeProof3 DelimProof2 DelimProof5 DelimProps.
From Coq Require Import Lia.

(** split_quoted_strings with one-character quote marks and at most one escape character *)
Definition parse_quoted (is_bytes : bool) (quotes multiline_quotes : list chr) (escape : option chr) (s state : str) : result (list tuple3 * option exn) :=
  split_quoted_strings is_bytes s (map (fun c => [c]) quotes) (match escape with Some e => [e] | None => [] end) (map (fun c => [c]) multiline_quotes) state.
Definition quote_or_none (marks : list chr) (state : str) : Prop := state = [] \/ exists q, In q marks /\ state = [q].

Lemma parse_parsed b quotes multi escape s state : NoDup (quotes ++ multi) -> quotes ++ multi <> [] -> valid_state quotes multi state ->
  parse_quoted b quotes multi escape s state = Ok (parsed b quotes multi escape state s).
Proof.
  intros ND NN V. destruct (C39_scanner b s quotes escape multi ND NN) as [H1 H2]. unfold parse_quoted, parsed.
  destruct V as [-> |(q & I & ->)]; [exact H1|]. exact (H2 q I).
Qed.

(** s1 is parsed first, then s2 with the quote mark that is open after s1: the tuples put
    together are those of s1 + s2.  If the second call raises SyntaxError then so does the call
    for the whole text (its last tuple, if it was still open after s1, is not yielded then); if
    already the first call does, the call for the whole text does exactly the same. *)
Theorem C125_quoted : forall is_bytes quotes multiline_quotes escape s1 s2 state,
  NoDup (quotes ++ multiline_quotes) -> quotes ++ multiline_quotes <> [] -> quote_or_none (quotes ++ multiline_quotes) state -> cut_ok quotes escape s1 s2 ->
  let parse := parse_quoted is_bytes quotes multiline_quotes escape in
  exists out1 e1, parse s1 state = Ok (out1, e1) /\
  match e1 with
  | Some x => parse (s1 ++ s2) state = Ok (out1, Some x)
  | None =>
      quote_or_none (quotes ++ multiline_quotes) (open_after state out1) /\
      exists out2 e2, parse s2 (open_after state out1) = Ok (out2, e2) /\
      parse (s1 ++ s2) state = Ok (match out2, open_after state out1 with [], _ :: _ => removelast out1 | _, _ => glue out1 out2 end, e2) /\
      (e2 = None -> parse (s1 ++ s2) state = Ok (glue out1 out2, None) /\ open_after state (glue out1 out2) = open_after (open_after state out1) out2)
  end.
Proof.
  intros b quotes multi escape s1 s2 state ND NN V C parse. subst parse. rewrite (parse_parsed _ _ _ _ _ _ ND NN V). destruct (parsed b quotes multi escape state s1) as [out1 [x|]] eqn:P1; do 2 eexists; (split; [reflexivity|]).
  - rewrite (parse_parsed _ _ _ _ _ _ ND NN V). f_equal. now apply resume_error.
  - destruct (resume_ok b quotes multi escape state s1 s2 out1 V C P1) as (V2 & out2 & e & E1 & E2). split; [exact V2|]. exists out2, e.
    rewrite !(parse_parsed _ _ _ _ _ _ ND NN V), (parse_parsed _ _ _ _ _ _ ND NN V2), E1, E2. split; [reflexivity|]. split; [reflexivity|]. intros ->.
    destruct (glue_run b quotes multi escape state s1 s2 out1 out2 V C P1 E1) as [H1 H2]. split; auto. congruence.
Qed.
Print Assumptions C125_quoted.

(** Any number of parts, for instance the lines of a text. *)
Theorem C125_quoted_parts : forall is_bytes quotes multiline_quotes escape parts state,
  NoDup (quotes ++ multiline_quotes) -> quotes ++ multiline_quotes <> [] -> quote_or_none (quotes ++ multiline_quotes) state -> parts <> [] -> cuts_ok quotes escape [] parts ->
  let parse := parse_quoted is_bytes quotes multiline_quotes escape in
  match feed parse state [] parts with
  | Ok (out, None) => parse (concat parts) state = Ok (out, None)
  | Ok (_, Some x) => exists out, parse (concat parts) state = Ok (out, Some x)
  | Err _ => False
  end.
Proof.
  intros b quotes multi escape parts state ND NN V NE C parse.
  assert (PP : forall s st, valid_state quotes multi st -> parse s st = Ok (parsed b quotes multi escape st s)) by (intros s st Vs; exact (parse_parsed _ _ _ _ _ _ ND NN Vs)).
  assert (G : forall parts don sofar st, cuts_ok quotes escape don parts -> parsed b quotes multi escape state don = (sofar, None) -> st = open_after state sofar -> valid_state quotes multi st ->
    match feed parse st sofar parts with
    | Ok (out, None) => parse (don ++ concat parts) state = Ok (out, None)
    | Ok (_, Some x) => exists out, parse (don ++ concat parts) state = Ok (out, Some x)
    | Err _ => False
    end).
  { clear parts NE C. induction parts as [|p parts IH]; intros don sofar st C P E Vst; cbn [feed concat].
    - rewrite app_nil_r, PP, P by exact V. reflexivity.
    - destruct C as [C1 C2]. cbn [concat] in C1. rewrite PP by exact Vst.
      assert (C1' : cut_ok quotes escape don p) by (unfold cut_ok in *; destruct escape; auto; destruct p; auto).
      subst st. destruct (resume_ok b quotes multi escape state don p sofar V C1' P) as (_ & out2 & e & E1 & E2).
      rewrite E1. destruct e as [x|].
      + (* the whole of what follows fails too *)
        rewrite app_assoc. rewrite PP by exact V.
        destruct parts as [|p' parts']; [cbn [concat]; rewrite app_nil_r, E2; eauto|]. destruct C2 as [C2 _].
        erewrite resume_error; [eauto| |exact E2]. exact C2.
      + destruct (glue_run b quotes multi escape state don p sofar out2 V C1' P E1) as [H1 H2]. rewrite app_assoc.
        apply IH; auto. rewrite <- H2. destruct (resume_ok b quotes multi escape state (don ++ p) [] _ V ltac:(unfold cut_ok; destruct escape; exact I) H1) as [V3 _]. exact V3. }
  destruct parts as [|p parts]; [congruence|]. cbn [feed concat]. destruct C as [_ C]. cbn [app] in C. rewrite PP by exact V. destruct (parsed b quotes multi escape state p) as [out [x|]] eqn:P.
  - rewrite PP by exact V. destruct parts as [|p' parts']; [cbn [concat]; rewrite app_nil_r, P; eauto|]. destruct C as [C _]. erewrite resume_error; [eauto| |exact P]. exact C.
  - change (glue [] out) with out. apply G; auto. destruct (resume_ok b quotes multi escape state p [] _ V ltac:(unfold cut_ok; destruct escape; exact I) P) as [V3 _]. exact V3.
Qed.
Print Assumptions C125_quoted_parts.

(** Cutting between an escape character and what it escapes does change the result, so the
    hypothesis is needed. *)
Theorem C125_cut_escape_refuted : exists s1 s2 out1 out2 out,
  parse_quoted false [34%N] [] (Some 92%N) s1 [] = Ok (out1, None) /\ parse_quoted false [34%N] [] (Some 92%N) s2 (open_after [] out1) = Ok (out2, None) /\
  parse_quoted false [34%N] [] (Some 92%N) (s1 ++ s2) [] = Ok (out, None) /\ out <> glue out1 out2.
Proof.
  exists (u """a\"), (u """b"""). do 3 eexists. split; [vm_compute; reflexivity|]. split; [vm_compute; reflexivity|]. split; [vm_compute; reflexivity|]. vm_compute. discriminate.
Qed.
Print Assumptions C125_cut_escape_refuted.
(** "If s ends with an unterminated quoted string the last tuple yielded will have a non-empty
    leading_quote" is false of a call that was given a state: its results do not tell whether
    the quote mark is still open. *)
Theorem C125_unterminated_refuted : exists s out, out <> [] /\
  parse_quoted false [34%N] [] (Some 92%N) s [34%N] = Ok (out, None) /\ parse_quoted false [34%N] [] (Some 92%N) s [] = Ok (out, None) /\
  parse_quoted false [34%N] [] (Some 92%N) (u """" ++ s) [] = Ok ([(u """", s, [])], None).
Proof. exists (u "abc"). eexists. split; [|split; [|split]]; [|vm_compute; reflexivity|vm_compute; reflexivity|vm_compute; reflexivity]. discriminate. Qed.
Print Assumptions C125_unterminated_refuted.

(** split_delimiters, with the state kept as its documentation advises: the tuples of the
    two parts put together are those of the whole text.  The cut can be anywhere: after an
    escape character the first call raises SyntaxError. *)
Theorem C125_delimiters : forall is_bytes t s1 s2 state out1 e1, t <> [] -> ~ In 92%N (map fst t) -> (forall k k' x, In k (map fst t) -> In (k', Nest x) t -> x <> k) ->
  let parse s state := split_delimiters is_bytes s (Some (table_of t)) state in
  parse s1 (map (fun c => [c]) state) = Ok (out1, e1) ->
  match e1 with
  | None => exists out2 e2, parse s2 (track (map (fun c => [c]) state) out1) = Ok (out2, e2) /\
      parse (s1 ++ s2) (map (fun c => [c]) state) = Ok (match out2, e2 with [], Some _ => finished out1 | _, _ => splice out1 out2 end, e2)
  | Some x => parse (s1 ++ s2) (map (fun c => [c]) state) = Ok (out1, Some x) \/ exists k c e m s0, In (k, Quote c e m) t /\ s1 = s0 ++ [e]
  end.
Proof.
  intros b t s1 s2 state out1 e1 T0 B D parse. subst parse. cbv beta. rewrite (C40_scanner b s1 t state T0 B D), (C40_scanner b (s1 ++ s2) t state T0 B D).
  destruct (enter1 t [] state) as [stack|] eqn:En; [|discriminate]. intros E. injection E as E. rewrite scan1_app. rewrite scan1_run in E.
  destruct (run1 t (is_linebreak b) stack [] false s1) as [a h] eqn:R. unfold go_on in *. cbn [fst snd] in *.
  destruct h as [[[k x] e']|]; [|injection E as <- <-; auto].
  destruct e'; cbn in E.
  - injection E as <- <-. right. destruct (run1_escaped t (is_linebreak b) s1 stack [] false a k x (enter1_from t state [] stack (fun d (H : In d []) => match H with end) En) R) as [[_ ?]|(c & s0 & esc & m & -> & I)]; [discriminate|].
    apply in_map_iff in I. destruct I as ([k0 d] & I1 & I2). cbn in I1. subst d. do 5 eexists. split; [exact I2|reflexivity].
  - assert (E1 : out1 = a ++ fin x /\ e1 = None) by (unfold fin; destruct x; cbn in E; injection E as <- <-; auto). destruct E1 as [-> ->].
    rewrite track_app, track_fin. destruct (track_run t (is_linebreak b) s1 state stack [] false a k x false En R) as (st' & T & En').
    change (map (fun c => [c]) state) with (map one state). rewrite T. change (map one st') with (map (fun c => [c]) st').
    rewrite (C40_scanner b s2 t st' T0 B D), En'.
    destruct (scan1 t (is_linebreak b) k [] false s2) as [out2 e2] eqn:S2. exists out2, e2. split; [reflexivity|]. f_equal.
    pose proof (scan1_text_app t (is_linebreak b) x s2 k [] false) as J. rewrite app_nil_r in J. rewrite J, S2.
    etransitivity; [|exact (splice_fin a x out2 e2 (run1_marked t (is_linebreak b) s1 stack [] false a _ R))]. destruct (join_text x (out2, e2)) as [l e0] eqn:Jt. cbn [fst]. f_equal.
    unfold join_text in Jt. destruct out2 as [|[[? ?] ?] ?], e2; congruence.
Qed.
Print Assumptions C125_delimiters.

(** the default delimiters *)
Lemma default_parse is_bytes s state : split_delimiters is_bytes s None state = split_delimiters is_bytes s (Some (table_of default1)) state.
Proof. reflexivity. Qed.
Corollary C125_default_delimiters : forall is_bytes s1 s2 out1,
  split_delimiters is_bytes s1 None [] = Ok (out1, None) ->
  exists out2 e2, split_delimiters is_bytes s2 None (track [] out1) = Ok (out2, e2) /\
    split_delimiters is_bytes (s1 ++ s2) None [] = Ok (match out2, e2 with [], Some _ => finished out1 | _, _ => splice out1 out2 end, e2).
Proof.
  intros b s1 s2 out1 E. rewrite default_parse in E.
  assert (D : forall k k' x, In k (map fst default1) -> In (k', Nest x) default1 -> x <> k).
  { intros k k' x I J. cbn in I, J. intuition (subst; try discriminate; match goal with Q : (_, Nest _) = (_, Nest x) |- _ => injection Q as <- <-; discriminate | _ => idtac end). all: congruence. }
  pose proof (C125_delimiters b default1 s1 s2 [] out1 None ltac:(discriminate) ltac:(cbn; intuition discriminate) D E) as H. cbn [map] in H.
  destruct H as (out2 & e2 & H1 & H2). exists out2, e2. rewrite !default_parse. auto.
Qed.
Print Assumptions C125_default_delimiters.

Example C125_witness :
  feed (parse_quoted false [34; 39]%N [96]%N (Some 92%N)) [] [] [u "a 'b"; u ""; u "c\'d' `x" ++ [10%N]; u "y` z"; u "\\'"]
  = Ok ([([], u "a ", []); (u "'", u "bc\'d", u "'"); ([], u " ", []); (u "`", u "x" ++ [10%N] ++ u "y", u "`"); ([], u " z\\", []); (u "'", [], [])], None) /\
  cuts_ok [34; 39]%N (Some 92%N) [] [u "a 'b"; u ""; u "c\'d' `x" ++ [10%N]; u "y` z"; u "\\'"] /\
  (exists out1 out2, split_delimiters false (u "f(a, [b") None [] = Ok (out1, None) /\ track [] out1 = [u "("; u "["] /\
     split_delimiters false (u "c], ""x)"")y") None [u "("; u "["] = Ok (out2, None) /\ length (splice out1 out2) = 7).
Proof.
  split; [vm_compute; reflexivity|]. split.
  - cbn [cuts_ok]. repeat match goal with |- _ /\ _ => split | |- True => exact I end; vm_compute; intros [n Hn]; destruct n as [|n]; cbn in Hn; lia.
  - do 2 eexists. split; [vm_compute; reflexivity|]. split; [vm_compute; reflexivity|]. split; vm_compute; reflexivity.
Qed.
