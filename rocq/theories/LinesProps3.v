(** C106: LineInfo.clip_leading and LineInfo.clip_trailing, called by any code. *)
From Verif Require Import LinesModel LinesSpec LinesSpec2 LinesSpec3 LinesProof SplitSpec SplitProof PyStrProof PyBaseProof DelimProof LinesProps LinesProps2.

Section P.
  Context (tab_width : Z).
  Notation width s := (Z.of_nat (length (expandtabs tab_width s))).

  Lemma all_clipped i a b line w : has_its_end (i, line) -> line = a ++ b -> exists q, clip_all i = Ok q /\ clipped a [] b w (i, line) q.
  Proof.
    intros H E. destruct (clip_all_taken i line H) as (q & A & B & C & D & F & G). exists q. split; auto. unfold clipped. cbn [fst snd]. split; [exact E|].
    split; [auto|]. split; [auto|]. split; [auto|]. split; [congruence|]. intros _. split; [auto|]. split; [auto|].
    apply (clip_all_accounted i q A).
  Qed.
  Lemma leading_ok i (a r : str) arg : has_its_end (i, a ++ r) -> slice_from (a ++ r) (clip_count arg) = r -> (arg = ByStr a \/ exists n, arg = ByInt n /\ (r <> [] -> slice_to (a ++ r) n = a)) ->
    exists q, clip_leading tab_width i (a ++ r) arg = Ok q /\ clipped a r [] (width a) (i, a ++ r) q.
  Proof.
    intros H S A. unfold clip_leading. rewrite S. destruct (is_nil r) eqn:N.
    - apply is_nil_iff in N. subst r. apply all_clipped; auto.
    - apply is_nil_false in N. assert ((match arg with ByStr s => s | ByInt n => slice_to (a ++ r) n end) = a) as ->. { destruct A as [-> | (n & -> & A)]; auto. }
      eexists. split; [reflexivity|]. unfold clipped. cbn. rewrite app_nil_r. repeat split; auto; congruence.
  Qed.
  Lemma trailing_ok i (r b : str) arg : has_its_end (i, r ++ b) -> (if (clip_count arg =? 0)%Z then [] else slice_to (r ++ b) (- clip_count arg)) = r ->
    (arg = ByStr b \/ exists n, arg = ByInt n /\ (r <> [] -> slice_from (r ++ b) (- n) = b)) ->
    exists q, clip_trailing i (r ++ b) arg = Ok q /\ clipped [] r b 0 (i, r ++ b) q.
  Proof.
    intros H S A. unfold clip_trailing. cbv zeta. rewrite S. destruct (is_nil r) eqn:N.
    - apply is_nil_iff in N. subst r. apply all_clipped; auto.
    - apply is_nil_false in N. assert ((match arg with ByStr s => s | ByInt n => slice_from (r ++ b) (- n) end) = b) as ->. { destruct A as [-> | (n & -> & A)]; auto. }
      eexists. split; [reflexivity|]. unfold clipped. cbn. rewrite app_nil_r. split; [auto|]. split; [auto|]. split; [auto|]. split; [auto|]. split; [|congruence]. intros _. split; [auto|]. split; [auto|lia].
  Qed.

  (** Clipping a leading string, or a trailing one that is not empty. *)
  Theorem C106_clip_leading_string : forall i a r, has_its_end (i, a ++ r) ->
    exists q, clip_leading tab_width i (a ++ r) (ByStr a) = Ok q /\ clipped a r [] (width a) (i, a ++ r) q.
  Proof. intros. apply leading_ok; auto. apply slice_from_app. Qed.
  Theorem C106_clip_trailing_string : forall i r b, b <> [] -> has_its_end (i, r ++ b) ->
    exists q, clip_trailing i (r ++ b) (ByStr b) = Ok q /\ clipped [] r b 0 (i, r ++ b) q.
  Proof. intros i r b N H. apply trailing_ok; auto. cbn [clip_count]. destruct (_ =? 0)%Z eqn:Z0; [destruct b; [congruence|cbn in Z0; lia]|]. apply slice_to_neg; auto. Qed.

  (** Clipping with an int, whatever it is: clip_leading(line, n) leaves line[n:];
      clip_trailing(line, n) leaves line[:-n], if n is not 0. *)
  Theorem C106_clip_leading_int : forall i line n, has_its_end (i, line) -> let k := position (Z.of_nat (length line)) n in
    exists q, clip_leading tab_width i line (ByInt n) = Ok q /\ clipped (firstn k line) (skipn k line) [] (width (firstn k line)) (i, line) q.
  Proof.
    intros i line n H k. pose proof (firstn_skipn k line) as E. rewrite <- E in H. pose proof (leading_ok i _ _ (ByInt n) H) as L. rewrite E in L. apply L; cbn [clip_count].
    - unfold k, position, slice_from. destruct (n <? 0)%Z; f_equal; lia.
    - right. exists n. split; auto. intros _. unfold k, position, slice_to. destruct (n <? 0)%Z; f_equal; lia.
  Qed.
  Theorem C106_clip_trailing_int : forall i line n, (n <> 0)%Z -> has_its_end (i, line) -> let k := position (Z.of_nat (length line)) (- n) in
    exists q, clip_trailing i line (ByInt n) = Ok q /\ clipped [] (firstn k line) (skipn k line) 0 (i, line) q.
  Proof.
    intros i line n N0 H k. pose proof (firstn_skipn k line) as E. rewrite <- E in H. pose proof (trailing_ok i _ _ (ByInt n) H) as L. rewrite E in L. apply L; cbn [clip_count].
    - destruct (n =? 0)%Z eqn:Z0; [lia|]. unfold k, position, slice_to. destruct (- n <? 0)%Z; f_equal; lia.
    - right. exists n. split; auto. intros _. unfold k, position, slice_from. destruct (- n <? 0)%Z; f_equal; lia.
  Qed.

  (** ... and if n is 0, or the string is empty, nothing. *)
  Theorem C106_clip_trailing_nothing : forall i line arg, arg = ByInt 0 \/ arg = ByStr [] -> has_its_end (i, line) ->
    exists q, clip_trailing i line arg = Ok q /\ clipped [] [] line 0 (i, line) q.
  Proof. intros i line arg [-> | ->] H; unfold clip_trailing; cbn [clip_count length]; cbn; apply all_clipped; auto. Qed.

  Lemma accounted_end p : accounted p -> has_its_end p.
  Proof. intros A. exists (i_leading (fst p) ++ snd p ++ i_trailing (fst p)). rewrite <- A, <- !app_assoc. reflexivity. Qed.
  Lemma one_call i line q a r b w : accounted (i, line) -> clipped a r b w (i, line) q -> accounted q.
  Proof.
    intros A (E & Eq & Id & _ & F & G). unfold accounted in *. cbn [fst snd] in *. unfold identity in Id. cbn [fst] in Id. injection Id as I1 I2 I3. destruct r as [|c r].
    - destruct (G eq_refl) as (-> & G2 & _). rewrite Eq. exact G2.
    - destruct F as (-> & -> & _); [discriminate|]. rewrite Eq, I1, I3, <- A, E, <- !app_assoc. reflexivity.
  Qed.
  Lemma one_column start i line q a r b : column_law start (i, line) -> width a = Z.of_nat (length a) -> clipped a r b (width a) (i, line) q -> column_law start q.
  Proof.
    intros C W (E & Eq & Id & _ & F & G). unfold column_law in *. cbn [fst snd] in *. destruct r as [|c r].
    - destruct (G eq_refl) as (-> & _ & ->). rewrite C. cbn. lia.
    - destruct F as (-> & _ & ->); [discriminate|]. rewrite C, W, app_length. lia.
  Qed.
  Lemma call_cases p q : accounted p ->
    (exists i a r, p = (i, a ++ r) /\ clip_leading tab_width i (a ++ r) (ByStr a) = Ok q) \/ (exists n, clip_leading tab_width (fst p) (snd p) (ByInt n) = Ok q) \/
    (exists i r b, p = (i, r ++ b) /\ clip_trailing i (r ++ b) (ByStr b) = Ok q) \/ (exists n, clip_trailing (fst p) (snd p) (ByInt n) = Ok q) ->
    exists a r b, snd p = a ++ r ++ b /\ (clipped a r b (width a) p q).
  Proof.
    intros A H. pose proof (accounted_end _ A) as W. destruct H as [(i & a & r & -> & C) | [(n & C) | [(i & r & b & -> & C) | (n & C)]]].
    - destruct (C106_clip_leading_string i a r W) as (q' & C' & K). rewrite C in C'. injection C' as <-. exists a, r, []. split; auto. apply K.
    - destruct p as [i line]. destruct (C106_clip_leading_int i line n W) as (q' & C' & K). cbn [fst snd] in *. rewrite C in C'. injection C' as <-. do 3 eexists. split; [apply K|exact K].
    - destruct b as [|c b].
      + destruct (C106_clip_trailing_nothing i (r ++ []) (ByStr []) (or_intror eq_refl) W) as (q' & C' & K). rewrite C in C'. injection C' as <-. exists [], [], (r ++ []). split; auto.
      + destruct (C106_clip_trailing_string i r (c :: b) ltac:(discriminate) W) as (q' & C' & K). rewrite C in C'. injection C' as <-. exists [], r, (c :: b). split; auto.
    - destruct p as [i line]. cbn [fst snd] in *. destruct (Z.eq_dec n 0) as [-> | N].
      + destruct (C106_clip_trailing_nothing i line (ByInt 0) (or_introl eq_refl) W) as (q' & C' & K). rewrite C in C'. injection C' as <-. exists [], [], line. split; auto.
      + destruct (C106_clip_trailing_int i line n N W) as (q' & C' & K). rewrite C in C'. injection C' as <-. do 3 eexists. split; [apply K|exact K].
  Qed.
  Lemma width_no_tabs (s : str) : ~ In 9%N s -> width s = Z.of_nat (length s).
  Proof.
    unfold expandtabs. generalize 0%Z. induction s as [|c s IH]; intros pos N; auto. cbn [expandtabs_aux]. destruct (c =? 9)%N eqn:E; [apply N.eqb_eq in E; subst; exfalso; apply N; now left|].
    cbn [length]. assert (N' : ~ In 9%N s) by (intros H; apply N; now right). specialize (IH (if ((c =? 10) || (c =? 13))%N then 0 else pos + 1)%Z N'). lia.
  Qed.
  (** Whatever a lines modifier clips from a line, and however often: leading, line, trailing and
      end are still the original line; and unless there are tabs in it, the column is that of the
      first character left. *)
  Theorem C106_history : forall start p q, clip_calls tab_width p q -> accounted p -> accounted q /\ identity q = identity p /\
    (~ In 9%N (i_line (fst p)) -> column_law start p -> column_law start q).
  Proof.
    intros start p q H. assert (G : forall p q z, accounted p -> (exists a r b, snd p = a ++ r ++ b /\ clipped a r b (width a) p q) ->
      (accounted q -> accounted z /\ identity z = identity q /\ (~ In 9%N (i_line (fst q)) -> column_law start q -> column_law start z)) ->
      accounted z /\ identity z = identity p /\ (~ In 9%N (i_line (fst p)) -> column_law start p -> column_law start z)).
    { clear. intros [i line] q z A (a & r & b & E & K) IH. pose proof (one_call _ _ _ _ _ _ _ A K) as A'. destruct (IH A') as (A1 & A2 & A3). split; auto.
      assert (Id : identity q = identity (i, line)) by (apply K). split; [congruence|]. intros T C. apply A3.
      - unfold identity in Id. cbn [fst] in *. congruence.
      - apply (one_column start i line q a r b); auto. apply width_no_tabs. intros I. apply T. cbn [fst]. rewrite <- A. cbn [fst snd] in *. rewrite E, !in_app_iff. auto. }
    induction H as [p|i a r q z C H IH|i line n q z C H IH|i r b q z C H IH|i line n q z C H IH]; intros A; [auto| | | |].
    all: apply (G _ q); auto; apply call_cases; auto.
    - left. eauto.
    - right. left. eauto.
    - right. right. left. eauto.
    - right. right. right. eauto.
  Qed.
End P.
Print Assumptions C106_clip_leading_string.
Print Assumptions C106_clip_trailing_string.
Print Assumptions C106_clip_leading_int.
Print Assumptions C106_clip_trailing_int.
Print Assumptions C106_clip_trailing_nothing.
Print Assumptions C106_history.

(** clip_trailing(line, 0) is documented to clip nothing, as clip_leading(line, 0) does; it clips
    the whole line.  So does clip_trailing(line, ''). *)
Theorem C106_nothing_refuted : let i := mkInfo (u "abc") 1 1 [] [] [] 0 in
  clip_leading 8 i (u "abc") (ByInt 0) = Ok (i, u "abc") /\
  clip_trailing i (u "abc") (ByInt 0) = Ok (mkInfo (u "abc") 1 1 [] (u "abc") [] 0, []) /\
  clip_trailing i (u "abc") (ByStr []) = Ok (mkInfo (u "abc") 1 1 [] (u "abc") [] 0, []).
Proof. repeat split. Qed.
Print Assumptions C106_nothing_refuted.
(** Once a tab has been clipped, clipping the rest of the line leaves a column before the line. *)
Theorem C106_tab_refuted : let i := mkInfo (9%N :: u "a") 1 1 [] [] [] 0 in
  exists q, clip_leading 8 i (9%N :: u "a") (ByInt 1) = Ok q /\ i_column (fst q) = 9%Z /\
    exists z, clip_leading 8 (fst q) (snd q) (ByInt 1) = Ok z /\ i_column (fst z) = 8%Z /\ i_leading (fst z) = [].
Proof. eexists. split; [reflexivity|]. split; [reflexivity|]. eexists. split; [reflexivity|]. split; reflexivity. Qed.
Print Assumptions C106_tab_refuted.

Example C106_witness : exists i p q, lines false 1 (Text (u "  abc; " ++ [10%N]) None) 1 = Ok [(i, u "  abc; "); p] /\ accounted (i, u "  abc; ") /\ column_law 1 (i, u "  abc; ") /\
  clip_calls 8 (i, u "  abc; ") q /\ snd q = u "abc" /\ i_leading (fst q) = u "  " /\ i_trailing (fst q) = u "; " /\ i_column (fst q) = 3%Z.
Proof.
  do 3 eexists. split; [vm_compute; reflexivity|]. split; [reflexivity|]. split; [reflexivity|]. split.
  - eapply (calls_leading_string 8 _ (u "  ") (u "abc; ")); [reflexivity|]. eapply calls_trailing_int with (n := 1%Z); [reflexivity|]. eapply (calls_trailing_string 8 _ (u "abc") (u ";")); [reflexivity|]. constructor.
  - repeat split.
Qed.
