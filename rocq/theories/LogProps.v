(** The properties C51 and C52 (Log). *)
From Verif Require Import PyBaseProof PyStrProof LogModel LogSpec.

(** the events of a history that starts with [stack] *)
Fixpoint events_of (start : Z) (stack : list str) (h : list (log_op * Z)) : list (Z * str * nat) :=
  match h with
  | [] => []
  | (Log e, now) :: h => (now - start, e, length stack) :: events_of start stack h
  | (Enter s, now) :: h => (now - start, s ++ u " start", length stack) :: events_of start (s :: stack) h
  | (Exit, now) :: h => match stack with
                        | [] => events_of start stack h
                        | s :: stack => (now - start, s ++ u " end", length stack) :: events_of start stack h
                        end
  | (Reset, now) :: h => []
  end.
Lemma run_events h : forall l, ~ In Reset (map fst h) -> lg_events (log_run l h) = lg_events l ++ events_of (lg_start l) (lg_stack l) h.
Proof.
  induction h as [|[o now] h IH]; intros l N; cbn [log_run events_of]; [now rewrite app_nil_r|]. cbn [map fst] in N.
  assert (N' : ~ In Reset (map fst h)) by (intros X; apply N; right; exact X). rewrite IH by exact N'.
  destruct o as [e|s| |]; cbn [log_step log_call log_enter lg_events lg_start lg_stack].
  - now rewrite <- app_assoc.
  - now rewrite <- app_assoc.
  - unfold log_exit. destruct (lg_stack l) as [|s st] eqn:E; [rewrite E; reflexivity|]. cbn [log_call lg_events lg_start lg_stack]. now rewrite <- app_assoc.
  - exfalso. apply N. left. reflexivity.
Qed.
Lemma run_app h1 h2 : forall l, log_run l (h1 ++ h2) = log_run (log_run l h1) h2.
Proof. induction h1 as [|[o now] h1 IH]; intros l; cbn [app log_run]; auto. Qed.

Lemma iter_length i : forall w, length (iter_from w i) = S (length i).
Proof. induction i as [|e i IH]; intros [[t ev] d]; cbn [iter_from length]; auto. Qed.
Lemma iter_nth i : forall w k, (k <= length i)%nat -> exists t ev d, nth_error (w :: i) k = Some (t, ev, d) /\
  nth_error (iter_from w i) k = Some (t, match nth_error i k with Some e => fst (fst e) - t | None => 0 end, ev, d).
Proof.
  induction i as [|e i IH]; intros [[t ev] d] k Hk.
  - assert (k = 0%nat) as -> by (cbn in Hk; lia). exists t, ev, d. auto.
  - destruct k as [|k]; [exists t, ev, d; auto|]. cbn [length] in Hk. destruct (IH e k ltac:(lia)) as (t' & ev' & d' & A & B). exists t', ev', d'. split; auto.
Qed.

(** ** stacks and brackets *)
(** [stack] is what is entered and not exited after [h] *)
Inductive open : list log_op -> list str -> Prop :=
| open_nil h : balanced h -> open h []
| open_cons h s b stack : open h stack -> balanced b -> open (h ++ Enter s :: b) (s :: stack).
Lemma balanced_app a b : balanced a -> balanced b -> balanced (a ++ b).
Proof. induction 1; intros B; cbn [app]; auto. - constructor; auto. - rewrite <- app_assoc. cbn [app]. constructor; auto. Qed.
Lemma balanced_nesting h : balanced h -> nesting h = 0.
Proof.
  assert (A : forall a b, nesting (a ++ b) = nesting a + nesting b) by (intros a b; unfold nesting; rewrite !filter_app, !app_length; lia).
  induction 1; auto. - change (Enter s :: h ++ Exit :: h') with ([Enter s] ++ h ++ [Exit] ++ h'). rewrite !A, IHbalanced1, IHbalanced2. reflexivity.
Qed.
Lemma open_nesting h st : open h st -> nesting h = Z.of_nat (length st).
Proof.
  assert (A : forall a b, nesting (a ++ b) = nesting a + nesting b) by (intros a b; unfold nesting; rewrite !filter_app, !app_length; lia).
  induction 1; [now apply balanced_nesting|]. rewrite A. change (Enter s :: b) with ([Enter s] ++ b). rewrite A, IHopen, (balanced_nesting b) by auto. cbn [length]. unfold nesting. cbn. lia.
Qed.
Lemma open_balanced h st b : open h st -> balanced b -> open (h ++ b) st.
Proof. intros O B. inversion O; subst; [constructor; now apply balanced_app|]. rewrite <- app_assoc. cbn [app]. constructor; auto. now apply balanced_app. Qed.
Lemma open_log h st e : open h st -> open (h ++ [Log e]) st.
Proof. intros O. apply open_balanced; auto. repeat constructor. Qed.
Lemma open_enter h st s : open h st -> open (h ++ [Enter s]) (s :: st).
Proof. intros O. constructor; auto. constructor. Qed.
Lemma open_exit h st s : open h (s :: st) -> open (h ++ [Exit]) st.
Proof. intros O. inversion O; subst. rewrite <- app_assoc. cbn [app]. apply open_balanced; auto. apply (balanced_enter s b []); auto. constructor. Qed.
Lemma nth_error_past {A} (a : list A) x b : nth_error (a ++ x :: b) (length a) = Some x.
Proof. induction a; cbn; auto. Qed.

Lemma events_ok start h : forall before stack, open before stack -> ~ In Reset (map fst h) -> (forall n, (n <= length h)%nat -> 0 <= nesting (before ++ firstn n (map fst h))) ->
  length (events_of start stack h) = length h /\
  forall k o now, nth_error h k = Some (o, now) -> exists text depth, nth_error (events_of start stack h) k = Some (now - start, text, depth) /\
     says (before ++ firstn k (map fst h)) o text /\ Z.of_nat depth = depth_of (before ++ firstn k (map fst h)) o.
Proof.
  induction h as [|[o now] h IH]; intros before stack O N W.
  - split; auto. intros [|k] o now E; discriminate.
  - cbn [map fst] in *. assert (N' : ~ In Reset (map fst h)) by (intros X; apply N; right; exact X).
    assert (W' : forall n, (n <= length h)%nat -> 0 <= nesting ((before ++ [o]) ++ firstn n (map fst h))).
    { intros n Hn. rewrite <- app_assoc. apply (W (S n)). cbn [length]. lia. }
    pose proof (open_nesting _ _ O) as NO.
    assert (Go : forall stack' text depth, open (before ++ [o]) stack' -> says before o text -> Z.of_nat depth = depth_of before o ->
       length ((now - start, text, depth) :: events_of start stack' h) = length ((o, now) :: h) /\
       forall k o' now', nth_error ((o, now) :: h) k = Some (o', now') -> exists text0 depth0, nth_error ((now - start, text, depth) :: events_of start stack' h) k = Some (now' - start, text0, depth0) /\
        says (before ++ firstn k (o :: map fst h)) o' text0 /\ Z.of_nat depth0 = depth_of (before ++ firstn k (o :: map fst h)) o').
    { intros stack' text depth O' S' D'. destruct (IH _ stack' O' N' W') as [L E]. split; [cbn [length]; lia|].
      intros [|k] o' now' E'; cbn [nth_error] in E'.
      - injection E' as <- <-. exists text, depth. cbn [firstn]. rewrite app_nil_r. auto.
      - destruct (E k o' now' E') as (t & d & A & B & C). exists t, d. rewrite <- app_assoc in B, C. auto. }
    destruct o as [e|s| |]; cbn [events_of].
    + apply Go; [now apply open_log|constructor|cbn; lia].
    + apply Go; [now apply open_enter|constructor|cbn; lia].
    + destruct stack as [|s stack].
      * exfalso. specialize (W 1%nat ltac:(cbn [length]; lia)). cbn [firstn] in W. unfold nesting in W, NO. rewrite !filter_app, !app_length in W. cbn [filter is_enter is_exit length] in W. cbn [length] in NO. lia.
      * apply Go; [now apply open_exit with (s := s)| |cbn [depth_of]; cbn [length] in NO; lia].
        inversion O; subst. econstructor; eauto.
    + exfalso. apply N. left. reflexivity.
Qed.

(** One event for the start, and one for every call, in order; the time of each is the clock's
    relative to the start, its depth the number of subsystems entered and not exited, and the time
    elapsed is the time up to the next event. *)
Theorem C51_events : forall (t0 : Z) (h : list (log_op * Z)), well_nested (map fst h) ->
  let events := log_iter (log_run (log_reset t0) h) in
  length events = S (length h) /\
  (exists elapsed, nth_error events 0 = Some (0, elapsed, u "log start", 0%nat)) /\
  (forall k o now, nth_error h k = Some (o, now) ->
     exists elapsed text depth, nth_error events (S k) = Some (now - t0, elapsed, text, depth) /\
       says (firstn k (map fst h)) o text /\ Z.of_nat depth = depth_of (firstn k (map fst h)) o) /\
  (forall k start elapsed text depth, nth_error events k = Some (start, elapsed, text, depth) ->
     match nth_error events (S k) with Some (start', _, _, _) => start + elapsed = start' | None => elapsed = 0 end).
Proof.
  intros t0 h [N W]. unfold log_iter. rewrite (run_events h _ N). cbn [log_reset lg_events lg_start lg_stack app].
  set (ev := events_of t0 [] h). destruct (events_ok t0 h [] [] ltac:(repeat constructor) N) as [L E]; [intros n Hn; apply W; now rewrite map_length|]. fold ev in L, E. cbn [app] in E.
  split; [rewrite iter_length; lia|]. split; [destruct (iter_nth ev (0, u "log start", 0%nat) 0 ltac:(lia)) as (t & e & d & A & B); cbn [nth_error] in A; injection A as <- <- <-; eauto|]. split.
  - intros k o now Ek. destruct (E k o now Ek) as (text & depth & A & B & C). assert (Hk : (k < length ev)%nat) by (apply nth_error_Some; congruence).
    destruct (iter_nth ev (0, u "log start", 0%nat) (S k) ltac:(lia)) as (t & e & d & A' & B'). cbn [nth_error] in A'. rewrite A in A'. injection A' as <- <- <-. eexists _, _, _. split; [exact B'|]. auto.
  - intros k start elapsed text depth Ek. assert (Hk : (k <= length ev)%nat) by (assert (k < length (iter_from (0%Z, u "log start", 0%nat) ev))%nat by (apply nth_error_Some; congruence); rewrite iter_length in H; lia).
    destruct (iter_nth ev (0, u "log start", 0%nat) k Hk) as (t & e & d & A & B). rewrite B in Ek. injection Ek as -> <- -> ->.
    destruct (nth_error ev k) as [[[t' e'] d']|] eqn:X.
    + assert (k < length ev)%nat by (apply nth_error_Some; congruence). destruct (iter_nth ev (0, u "log start", 0%nat) (S k) ltac:(lia)) as (t2 & e2 & d2 & A2 & B2). cbn [nth_error] in A2. rewrite X in A2. injection A2 as <- <- <-. rewrite B2. cbn [fst]. lia.
    + assert (nth_error (iter_from (0, u "log start", 0%nat) ev) (S k) = None) as ->; auto. apply nth_error_None. rewrite iter_length. apply nth_error_None in X. lia.
Qed.
Print Assumptions C51_events.
(** reset() forgets everything, and exit() without enter() raises and changes nothing. *)
Theorem C51_reset : forall t0 h1 t1 h2, log_run (log_reset t0) (h1 ++ (Reset, t1) :: h2) = log_run (log_reset t1) h2.
Proof. intros. now rewrite run_app. Qed.
Print Assumptions C51_reset.
Theorem C51_exit : forall t0 h now, well_nested (map fst h) -> (log_exit now (log_run (log_reset t0) h) = Err IndexError <-> nesting (map fst h) = 0).
Proof.
  intros t0 h now [N W]. assert (O : forall h before l, open before (lg_stack l) -> ~ In Reset (map fst h) -> (forall n, (n <= length h)%nat -> 0 <= nesting (before ++ firstn n (map fst h))) -> open (before ++ map fst h) (lg_stack (log_run l h))).
  { clear. induction h as [|[o now] h IH]; intros before l O N W; cbn [map log_run fst] in *; [now rewrite app_nil_r|].
    assert (N' : ~ In Reset (map fst h)) by (intros X; apply N; right; exact X).
    assert (W' : forall n, (n <= length h)%nat -> 0 <= nesting ((before ++ [o]) ++ firstn n (map fst h))) by (intros n Hn; rewrite <- app_assoc; apply (W (S n)); cbn [length]; lia).
    change (before ++ o :: map fst h) with (before ++ [o] ++ map fst h). rewrite app_assoc. apply IH; auto. destruct o as [e|s| |]; cbn [log_step].
    - now apply open_log. - now apply open_enter.
    - unfold log_exit. pose proof (open_nesting _ _ O) as NO. destruct (lg_stack l) as [|s st] eqn:E; [|cbn [log_call lg_stack]; now apply open_exit with (s := s)].
      exfalso. specialize (W 1%nat ltac:(cbn [length]; lia)). cbn [firstn] in W. unfold nesting in W, NO. rewrite !filter_app, !app_length in W. cbn [filter is_enter is_exit length] in W. cbn [length] in NO. lia.
    - exfalso. apply N. left. reflexivity. }
  specialize (O h [] (log_reset t0) ltac:(repeat constructor) N ltac:(intros n Hn; apply W; now rewrite map_length)). apply open_nesting in O. cbn [app] in O. rewrite O.
  unfold log_exit. destruct (lg_stack (log_run (log_reset t0) h)); cbn [length]; [tauto|]. split; [discriminate|lia].
Qed.
Print Assumptions C51_exit.
Example C51_witness : well_nested [Log (u "a"); Enter (u "s"); Log (u "b"); Enter (u "t"); Exit; Exit] /\
  log_iter (log_run (log_reset 100) [(Log (u "a"), 105); (Enter (u "s"), 107); (Log (u "b"), 110); (Enter (u "t"), 111); (Exit, 115); (Exit, 120)]) =
  [(0, 5, u "log start", 0%nat); (5, 2, u "a", 0%nat); (7, 3, u "s start", 0%nat); (10, 1, u "b", 1%nat); (11, 4, u "t start", 1%nat); (15, 5, u "t end", 1%nat); (20, 0, u "s end", 0%nat)].
Proof.
  split; [|reflexivity]. split; [cbn; intros X; repeat destruct X as [X|X]; discriminate || auto|]. intros n Hn. cbn [length] in Hn. do 7 (destruct n as [|n]; [vm_compute; discriminate|]). lia.
Qed.

(** * C52: print *)
(** [s] is the number of seconds with [width] or more digits, a point, and the first [digits]
    digits of the nanoseconds *)
Definition shows_time (t : Z) (width digits : nat) (s : str) : Prop := exists sec frac, s = sec ++ u "." ++ frac /\
  forallb is_digit sec = true /\ forallb is_digit frac = true /\ int_of sec = t / 10 ^ 9 /\ (width <= length sec)%nat /\
  length frac = min digits 9 /\ int_of frac = (t mod 10 ^ 9) / 10 ^ Z.of_nat (9 - digits).
Lemma int_of_zeros n s : int_of (repeat 48%N n ++ s) = int_of s.
Proof. induction n as [|n IH]; auto. Qed.
Lemma digits_zeros n s : forallb is_digit (repeat 48%N n ++ s) = forallb is_digit s.
Proof. induction n as [|n IH]; auto. Qed.
Lemma int_of_shift s : forall a, fold_left (fun acc c => acc * 10 + Z.of_N (c - 48)) s a = a * 10 ^ Z.of_nat (length s) + int_of s.
Proof.
  unfold int_of. induction s as [|c s IH]; intros a; cbn [fold_left length]; [rewrite Z.pow_0_r; lia|]. rewrite IH, (IH (0 * 10 + _)). rewrite Nat2Z.inj_succ, Z.pow_succ_r by lia. lia.
Qed.
Lemma int_of_bound s : forallb is_digit s = true -> 0 <= int_of s < 10 ^ Z.of_nat (length s).
Proof.
  induction s as [|c s IH]; intros D; cbn [forallb length] in *; [cbn; lia|]. apply andb_true_iff in D. destruct D as [Dc Ds]. specialize (IH Ds). unfold int_of. cbn [fold_left]. rewrite int_of_shift.
  unfold is_digit, between in Dc. rewrite andb_true_iff, !N.leb_le in Dc. rewrite Nat2Z.inj_succ, Z.pow_succ_r by lia. change (0 * 10) with 0. assert (0 <= Z.of_N (c - 48) <= 9) by lia. set (p := 10 ^ Z.of_nat (length s)) in *.
 assert (X : forall a q i, 0 <= a <= 9 -> 0 <= i < q -> 0 <= (0 + a) * q + i < 10 * q) by (intros; nia). apply X; auto.
Qed.
Lemma int_of_firstn s n : forallb is_digit s = true -> (n <= length s)%nat -> int_of (firstn n s) = int_of s / 10 ^ Z.of_nat (length s - n).
Proof.
  intros D L. rewrite <- (firstn_skipn n s) at 2. rewrite int_of_app, int_of_shift. fold (int_of (firstn n s)). rewrite skipn_length.
  assert (B : 0 <= int_of (skipn n s) < 10 ^ Z.of_nat (length s - n)).
  { rewrite <- skipn_length. apply int_of_bound. rewrite <- (firstn_skipn n s), forallb_app, andb_true_iff in D. apply D. }
  rewrite Z.div_add_l by lia. rewrite Z.div_small by lia. lia.
Qed.
(** a decimal has no leading zeros *)
Lemma dec_aux_length f : forall n k, (n < 10 ^ N.of_nat k)%N -> (0 < k)%nat -> (length (dec_aux f n []) <= k)%nat.
Proof.
  induction f as [|f IH]; intros n k H K; cbn [dec_aux]; [cbn; lia|]. destruct (n <? 10)%N eqn:E; [cbn; lia|]. rewrite dec_aux_acc, app_length. cbn [length]. apply N.ltb_ge in E.
  destruct k as [|[|k]]; [lia|change (10 ^ N.of_nat 1)%N with 10%N in H; lia|].
  assert (length (dec_aux f (n / 10) []) <= S k)%nat; [|lia]. apply IH; [|lia]. apply N.div_lt_upper_bound; [lia|]. rewrite (Nnat.Nat2N.inj_succ (S k)), N.pow_succ_r' in H. lia.
Qed.
(** Every time below one second is printed exactly (truncated to the width asked for). *)
Theorem C52_time_partial : forall t seconds_width fractional_width, 0 <= t < 10 ^ 9 -> shows_time t seconds_width fractional_width (format_time seconds_width fractional_width t).
Proof.
  intros t w d T. unfold format_time. change 1000000000 with (10 ^ 9). rewrite (Z.div_small t (10 ^ 9)) by auto. rewrite Z.sub_0_r.
  unfold shows_time. exists (format_zero w 0), (firstn d (format_right 9 t)). split; auto.
  assert (F : format_zero w 0 = zeros w [48%N]) by reflexivity. rewrite F. unfold zeros.
  assert (S : str_int t = dec (Z.to_N t)) by (unfold str_int; assert (t <? 0 = false) as -> by lia; reflexivity).
  destruct (dec_spec (Z.to_N t)) as (A & B & C). assert (L : (length (dec (Z.to_N t)) <= 9)%nat) by (apply dec_aux_length; [|lia]; change (10 ^ N.of_nat 9)%N with 1000000000%N; lia).
  assert (Lf : length (format_right 9 t) = 9%nat) by (unfold format_right, zeros; rewrite S, app_length, repeat_length; exact (Nat.sub_add _ _ L)).
  assert (Df : forallb is_digit (format_right 9 t) = true) by (unfold format_right, zeros; rewrite digits_zeros, S; exact B).
  assert (If : int_of (format_right 9 t) = t) by (unfold format_right, zeros; rewrite int_of_zeros, S, A; lia).
  split; [rewrite digits_zeros; reflexivity|]. split; [rewrite <- (firstn_skipn d (format_right 9 t)), forallb_app, andb_true_iff in Df; apply Df|].
  split; [rewrite int_of_zeros, Z.div_small by auto; reflexivity|]. split; [rewrite app_length, repeat_length; cbn [length]; lia|]. split; [rewrite firstn_length, Lf; reflexivity|].
  rewrite (Z.mod_small t) by auto. destruct (le_gt_dec d 9) as [H|H].
  - rewrite int_of_firstn; auto; [|lia]. now rewrite If, Lf.
  - rewrite firstn_all2 by lia. rewrite If. replace (9 - d)%nat with 0%nat by lia. now rewrite Z.div_1_r.
Qed.
Print Assumptions C52_time_partial.
(** After a second and a half, "01.149999999" is printed. *)
Theorem C52_time_refuted : format_time 2 9 1500000000 = u "01.149999999" /\ ~ shows_time 1500000000 2 9 (u "01.149999999") /\ shows_time 1500000000 2 9 (u "01.500000000").
Proof.
  split; [reflexivity|]. split.
  - intros (sec & frac & E & Ds & Df & Is & Lw & Lf & If). assert (A : frac = u "149999999").
    { assert (L : length (u "01.149999999") = (length sec + 1 + length frac)%nat) by (rewrite E, !app_length; cbn [length u]; lia). cbn [Nat.min] in Lf. rewrite Lf in L. cbn in L.
      assert (L2 : length sec = 2%nat) by lia. destruct sec as [|a [|b [|? ?]]]; try discriminate. injection E as _ _ E. symmetry. exact E. }
    subst frac. vm_compute in If. discriminate.
  - exists (u "01"), (u "500000000"). repeat split. cbn; lia.
Qed.
Print Assumptions C52_time_refuted.
(** A clock that goes backwards makes times negative; they are printed with a stray sign. *)
Theorem C52_negative_refuted : format_time 4 9 (-5) = u "-001.0000000-4" /\ format_time 1 12 (-5) = u "-1.0000000-4" /\ format_time 2 9 (-12000000000) = u "-12.-11999999".
Proof. repeat split. Qed.
Print Assumptions C52_negative_refuted.
(** print() prints one line for each event: the two times, and the event indented by its depth. *)
Theorem C52_lines : forall title headings indent sw fw l, exists header, log_print title headings indent sw fw l = header ++ map (fun '(start, elapsed, event, depth) =>
   spaces indent ++ format_time sw fw start ++ u "  " ++ format_time sw fw elapsed ++ u "  " ++ spaces (indent * depth) ++ event) (log_iter l) /\ (length header <= 3)%nat.
Proof.
  intros. unfold log_print. rewrite app_assoc. eexists. split.
  - f_equal. apply map_ext. intros [[[a b] c] d]. do 5 f_equal. f_equal. unfold spaces. rewrite Nat.mul_comm. induction d as [|d IH]; auto. cbn [repeat concat Nat.mul]. rewrite IH, <- repeat_app. reflexivity.
  - rewrite app_length. destruct title, headings; cbn; lia.
Qed.
Print Assumptions C52_lines.
Example C52_witness : log_print (u "[event log]") true 2 2 9 (log_run (log_reset 100) [(Enter (u "s"), 105); (Log (u "b"), 1234107)]) =
  [u "[event log]"; u "  start         elapsed       event"; u "  ------------  ------------  ---------"; u "  00.000000000  00.000000005  log start"; u "  00.000000005  00.001234002  s start"; u "  00.001234007  00.000000000    b"].
Proof. reflexivity. Qed.
(** What is printed for every time that is not negative: the seconds are right; after the point
    come the first digits of the number t - t/10^9, written with nine digits or more (the fraction
    only if t is below a second). *)
Theorem C52_time_exact : forall t seconds_width fractional_width, 0 <= t ->
  exists sec digits, format_time seconds_width fractional_width t = sec ++ u "." ++ firstn fractional_width digits /\
    forallb is_digit sec = true /\ int_of sec = t / 10 ^ 9 /\ (seconds_width <= length sec)%nat /\
    forallb is_digit digits = true /\ int_of digits = t - t / 10 ^ 9 /\ (9 <= length digits)%nat.
Proof.
  intros t w d T. unfold format_time. change 1000000000 with (10 ^ 9).
  pose proof (Z.div_pos t (10 ^ 9) T eq_refl) as Q. pose proof (Z.div_le_upper_bound t (10 ^ 9) t eq_refl ltac:(nia)) as Q2.
  assert (G : forall w z, 0 <= z -> forallb is_digit (zeros w (str_int z)) = true /\ int_of (zeros w (str_int z)) = z /\ (w <= length (zeros w (str_int z)))%nat).
  { intros w0 z Hz. unfold zeros. rewrite digits_zeros, int_of_zeros, app_length, repeat_length. destruct (dec_spec (Z.to_N z)) as (A & B & C).
    assert (S : str_int z = dec (Z.to_N z)) by (unfold str_int; rewrite (proj2 (Z.ltb_ge z 0)) by lia; reflexivity). rewrite S, A. split; auto. split; [lia|]. match goal with |- (?w <= ?w - ?a + ?b)%nat => change b with a; lia end. }
  exists (format_zero w (t / 10 ^ 9)), (format_right 9 (t - t / 10 ^ 9)). split; auto.
  assert (F : format_zero w (t / 10 ^ 9) = zeros w (str_int (t / 10 ^ 9))) by (unfold format_zero; assert (t / 10 ^ 9 <? 0 = false) as -> by lia; reflexivity).
  rewrite F. destruct (G w (t / 10 ^ 9) Q) as (A & B & C). unfold format_right. destruct (G 9%nat (t - t / 10 ^ 9)) as (A' & B' & C'); [lia|]. repeat split; auto.
Qed.
Print Assumptions C52_time_exact.
(** ... and for every negative one: a sign and the seconds rounded down; after the point the first characters of the number t - floor(t/10^9), which is
    written with its sign behind the zeros it is padded with. *)
Theorem C52_negative_exact : forall t seconds_width fractional_width, t < 0 ->
  exists sec pad digits, format_time seconds_width fractional_width t = u "-" ++ sec ++ u "." ++ firstn fractional_width (pad ++ (if t <? -1 then u "-" else []) ++ digits) /\
    forallb is_digit sec = true /\ int_of sec = - (t / 10 ^ 9) /\ (seconds_width <= 1 + length sec)%nat /\
    (exists n, pad = repeat 48%N n) /\ forallb is_digit digits = true /\ int_of digits = - (t - t / 10 ^ 9) /\ (pad <> [] -> length (pad ++ (if t <? -1 then u "-" else []) ++ digits) = 9%nat).
Proof.
  intros t w d T. unfold format_time. change 1000000000 with (10 ^ 9).
  assert (Q : t / 10 ^ 9 < 0) by (apply Z.div_lt_upper_bound; lia). assert (Q2 : t <= t / 10 ^ 9) by (pose proof (Z.mul_div_le t (10 ^ 9) eq_refl); nia).
  assert (D : forall z, 0 <= z -> str_int z = dec (Z.to_N z)) by (intros z Hz; unfold str_int; rewrite (proj2 (Z.ltb_ge z 0)) by lia; reflexivity).
  assert (F : format_zero w (t / 10 ^ 9) = 45%N :: zeros (w - 1) (dec (Z.to_N (- (t / 10 ^ 9))))) by (unfold format_zero; assert (t / 10 ^ 9 <? 0 = true) as -> by lia; rewrite D by lia; reflexivity).
  exists (zeros (w - 1) (dec (Z.to_N (- (t / 10 ^ 9))))), (repeat 48%N (9 - length (str_int (t - t / 10 ^ 9)))), (dec (Z.to_N (- (t - t / 10 ^ 9)))). rewrite F.
  assert (SI : str_int (t - t / 10 ^ 9) = (if t <? -1 then u "-" else []) ++ dec (Z.to_N (- (t - t / 10 ^ 9)))).
  { destruct (t <? -1) eqn:E.
    - assert (t - t / 10 ^ 9 < 0). { assert (t < t / 10 ^ 9); [|lia]. destruct (Z.eq_dec t (t / 10 ^ 9)) as [E2|]; [|lia]. pose proof (Z.mul_succ_div_gt t (10 ^ 9) eq_refl). nia. }
      unfold str_int. assert (t - t / 10 ^ 9 <? 0 = true) as -> by lia. reflexivity.
    - assert (t = -1) as -> by lia. reflexivity. }
  split.
  { unfold format_right, zeros at 2. rewrite SI at 2. reflexivity. }
  split; [unfold zeros; rewrite digits_zeros; apply (dec_spec (Z.to_N (- (t / 10 ^ 9))))|]. split; [unfold zeros; rewrite int_of_zeros; destruct (dec_spec (Z.to_N (- (t / 10 ^ 9)))) as (B & _); rewrite B, Z2N.id; lia|].
  split; [unfold zeros; rewrite app_length, repeat_length; match goal with |- context[(?w - 1 - ?a + ?b)%nat] => change b with a; lia end|].
  split; [eauto|]. split; [apply (dec_spec (Z.to_N (- (t - t / 10 ^ 9))))|]. split; [destruct (dec_spec (Z.to_N (- (t - t / 10 ^ 9)))) as (B & _); rewrite B, Z2N.id; lia|].
  intros NE. assert (N0 : (9 - length (str_int (t - t / 10 ^ 9)))%nat <> O) by (intros Z0; apply NE; exact (f_equal (repeat 48%N) Z0)). rewrite app_length, repeat_length, <- SI. unfold str in *. lia.
Qed.
Print Assumptions C52_negative_exact.
(** What print() prints above the events, for the log of every history of calls: the title unless
    it is empty, and then, only if they are asked for, the headings and a rule under them; in the
    rule, the dashes under "event" are as many as the longest event printed has characters. *)
Theorem C52_header : forall t0 h title (headings : bool) indent sw fw, let l := log_run (log_reset t0) h in
  exists longest, (forall e, In e (log_iter l) -> (length (snd (fst e)) <= longest)%nat) /\ (exists e, In e (log_iter l) /\ length (snd (fst e)) = longest) /\
  firstn (length (log_print title headings indent sw fw l) - length (log_iter l)) (log_print title headings indent sw fw l) =
    (match title with [] => [] | _ => [title] end) ++
    (if headings then [spaces indent ++ u "start" ++ spaces (sw + 1 + fw - 5) ++ u "  " ++ u "elapsed" ++ spaces (sw + 1 + fw - 7) ++ u "  " ++ u "event";
                       spaces indent ++ repeat 45%N (sw + 1 + fw) ++ u "  " ++ repeat 45%N (sw + 1 + fw) ++ u "  " ++ repeat 45%N longest]
     else []).
Proof.
  intros t0 h title headings indent sw fw l. exists (lg_longest l).
  set (tight := fun k : log => (forall e, In e (lg_events k) -> (length (snd (fst e)) <= lg_longest k)%nat) /\ exists e, In e (lg_events k) /\ length (snd (fst e)) = lg_longest k).
  assert (R : forall t, tight (log_reset t)).
  { intros t. split; cbn. { intros e [<-|[]]. cbn. lia. } eexists. split; [left; reflexivity|reflexivity]. }
  assert (Call : forall ev now k, tight k -> tight (log_call ev now k)).
  { intros ev now k [A (e0 & B1 & B2)]. unfold log_call. split; cbn.
    - intros e I. apply in_app_or in I as [I | [<-|[]]]; [apply A in I; lia | cbn; lia].
    - destruct (Nat.max_spec (lg_longest k) (length ev)) as [[L E]|[L E]]; rewrite E.
      + eexists. split; [apply in_or_app; right; left; reflexivity|reflexivity].
      + exists e0. split; [apply in_or_app; auto|auto]. }
  assert (T : tight l).
  { unfold l. generalize (R t0). generalize (log_reset t0). induction h as [|[o now] h IH]; intros k K; auto. cbn [log_run]. apply IH.
    destruct o; cbn [log_step].
    - apply Call, K.
    - unfold log_enter. pose proof (Call (subsystem ++ u " start") now k K) as [A B]. split; cbn; [exact A|exact B].
    - unfold log_exit. destruct (lg_stack k) as [|s st]; [exact K|]. apply Call. destruct K as [A B]. split; cbn; [exact A|exact B].
    - apply R. }
  assert (I : map (fun e : Z * Z * str * nat => snd (fst e)) (log_iter l) = map (fun e => snd (fst e)) (lg_events l)).
  { unfold log_iter. destruct (lg_events l) as [|w r]; auto. revert w. induction r as [|a r IH]; intros [[a1 b1] c1]; auto. cbn [iter_from map fst snd]. f_equal. apply IH. }
  destruct T as [A (e0 & B1 & B2)]. split; [|split].
  - intros e H. apply (in_map (fun e : Z * Z * str * nat => snd (fst e))) in H. rewrite I in H. apply in_map_iff in H as (x & <- & X). apply A, X.
  - apply (in_map (fun e => snd (fst e))) in B1. rewrite <- I in B1. apply in_map_iff in B1 as (x & X & H). exists x. split; auto. rewrite X. exact B2.
  - unfold log_print. rewrite app_assoc. rewrite app_length, map_length, Nat.add_sub, firstn_app, Nat.sub_diag, firstn_all, firstn_O, app_nil_r. unfold pad.
    rewrite <- !app_assoc. reflexivity.
Qed.
Print Assumptions C52_header.
(** C52_time_exact, C52_negative_exact: 1.5 s is printed as 1.149999999, -5 as -1.0000000-4 *)
Example C52_exact_witness : format_time 2 9 1500000000 = u "01.149999999" /\ format_time 2 9 (-5) = u "-1.0000000-4" /\
  log_print (u "t") true 1 2 3 (log_run (log_reset 0) [(Log (u "ab"), 7000000)]) =
    [u "t"; u " start   elapsed  event"; u " ------  ------  ---------"; u " 00.000  00.007  log start"; u " 00.007  00.000  ab"].
Proof. vm_compute. repeat split. Qed.
