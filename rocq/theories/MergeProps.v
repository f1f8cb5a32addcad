(** Theorems about merge_columns. *)
From Coq Require Import Sorted.
From Verif Require Import LinesProof MergeModel MergeSpec MergeProof MergeProof2 MergeProof3.

(** some line of the column, without trailing whitespace, is wider than the column *)
Definition wide is_bytes (c : str * nat) : Prop := exists l, In l (text_lines is_bytes (fst c)) /\ snd c < length (rstrip is_bytes l).
Lemma wide_iff is_bytes c : wide is_bytes c <-> too_wide_somewhere is_bytes c = true.
Proof.
  unfold wide, too_wide_somewhere. rewrite existsb_exists. split.
  - intros (l & I & L). apply In_nth with (d := []) in I. destruct I as (k & K & E). exists k. split; [apply in_seq; unfold height; lia|]. unfold too_wide, line. rewrite E. apply Nat.ltb_lt, L.
  - intros (k & K & H). apply in_seq in K. exists (line is_bytes c k). split; [apply nth_In; unfold height in K; lia | apply Nat.ltb_lt, H].
Qed.
Lemma wide_error is_bytes strategy cols : overflow_error is_bytes strategy cols = true <-> strategy = RAISE /\ Exists (wide is_bytes) cols.
Proof.
  unfold overflow_error. rewrite Exists_exists. destruct strategy; try (split; [discriminate | intros [Q _]; discriminate]).
  rewrite existsb_exists. split.
  - intros (c & I & H). split; [reflexivity|]. exists c. split; [exact I|apply wide_iff, H].
  - intros (_ & c & I & H). exists c. split; [exact I|apply wide_iff, H].
Qed.
(** C79: which exception, and when *)
Theorem C79_raise is_bytes before after cols sep strategy e :
  merge_columns is_bytes before after cols sep strategy = Err e <->
  (e = AssertionError /\ (strategy = INVALID \/ cols = [])) \/ (e = OverflowError /\ strategy = RAISE /\ Exists (wide is_bytes) cols).
Proof.
  destruct (match strategy with INVALID => true | _ => false end) eqn:EI.
  { destruct strategy; try discriminate. cbn. split; [intros H; injection H as <-; left; auto | intros [[-> _] | (_ & Q & _)]; [reflexivity|discriminate]]. }
  assert (NI : strategy <> INVALID) by (intros ->; discriminate).
  destruct cols as [|c cols].
  { assert (M : merge_columns is_bytes before after [] sep strategy = Err AssertionError) by (destruct strategy; reflexivity). rewrite M.
    split; [intros H; injection H as <-; left; auto | intros [[-> _] | (_ & _ & Q)]; [reflexivity|inversion Q]]. }
  destruct (overflow_error is_bytes strategy (c :: cols)) eqn:OE.
  - rewrite merge_error by (try assumption; discriminate). apply wide_error in OE. split.
    + intros H. injection H as <-. right. auto.
    + intros [[_ [Q | Q]] | (-> & _)]; [contradiction|discriminate|reflexivity].
  - destruct (merge_spec is_bytes before after strategy (c :: cols) sep NI ltac:(discriminate) OE) as (n & E & _). rewrite E. split; [discriminate|].
    intros [[_ [Q | Q]] | (_ & Q)]; [contradiction|discriminate|]. apply wide_error in Q. congruence.
Qed.
Print Assumptions C79_raise.

(** C80: if no line is too wide, row r shows line r of every column, padded to its width ... *)
Theorem C80_columns_partial is_bytes before after cols sep strategy :
  strategy <> INVALID -> cols <> [] -> Forall (fun c => ~ wide is_bytes c) cols -> Forall (tidy is_bytes) cols ->
  merge_columns is_bytes before after cols (Some sep) strategy =
  Ok (text_of is_bytes sep (fun r => map (fun c => ljust (snd c) (rstrip is_bytes (line is_bytes c r))) cols) (list_max (map (height is_bytes) cols))).
Proof.
  intros NI NE NW T.
  assert (OE : overflow_error is_bytes strategy cols = false).
  { destruct (overflow_error is_bytes strategy cols) eqn:OE; [|reflexivity]. apply wide_error in OE. destruct OE as [_ OE]. apply Exists_exists in OE. destruct OE as (c & I & W). rewrite Forall_forall in NW. destruct (NW c I W). }
  assert (IN : Forall (fun c => forall k, intrudes is_bytes before after strategy c k = false) cols).
  { rewrite Forall_forall in NW |- *. intros c I k. specialize (NW c I). unfold intrudes.
    assert (TW : forall m, In m (seq 0 (height is_bytes c)) -> too_wide is_bytes c m = false).
    { intros m M. destruct (too_wide is_bytes c m) eqn:E; [|reflexivity]. destruct NW. apply wide_iff. apply existsb_exists. exists m. auto. }
    destruct (k <? height is_bytes c); [|reflexivity]. cbn [andb]. destruct strategy; try reflexivity; apply Bool.not_true_iff_false; rewrite existsb_exists; intros (m & M1 & M2); rewrite (TW m M1) in M2; discriminate. }
  destruct (merge_spec is_bytes before after strategy cols (Some sep) NI NE OE) as (n & E & D & N). rewrite E, (text_same is_bytes before after strategy) by exact T.
  destruct (no_intrusion is_bytes before after strategy (fun c k => rstrip is_bytes (line is_bytes c k)) cols IN all_free (fun _ => eq_refl)) as [L _].
  destruct (no_intrusion is_bytes before after strategy (fun c k => rstrip is_bytes (line is_bytes c k)) cols IN all_free (fun _ => eq_refl)) as [_ DN].
  assert (EN : n = list_max (map (height is_bytes) cols)).
  { apply DN in D. assert (L1 : list_max (map (height is_bytes) cols) <= n) by (apply list_max_le; rewrite Forall_map; exact D).
    destruct (le_lt_dec n (list_max (map (height is_bytes) cols))) as [G | G]; [lia|]. destruct (N _ G). apply DN.
    apply (proj1 (Forall_map (height is_bytes) (fun h => h <= _) cols)). apply list_max_le. lia. }
  rewrite <- EN. f_equal. unfold text_of. do 2 f_equal. apply map_ext. intros r. rewrite L. reflexivity.
Qed.
Print Assumptions C80_columns_partial.
(** ... but trailing spaces of a line count: "a   \nb" in a column of width 2, beside "x\ny": "a    x\nb  y" *)
Theorem C80_trailing_spaces_refuted :
  exists cols, Forall (fun c => ~ wide false c) cols /\
    merge_columns false 0 0 cols (Some [32%N]) RAISE = Ok [97; 32; 32; 32; 32; 120; 10; 98; 32; 32; 121]%N /\
    text_of false [32%N] (fun r => map (fun c => ljust (snd c) (rstrip false (line false c r))) cols) (list_max (map (height false) cols)) = [97; 32; 32; 120; 10; 98; 32; 32; 121]%N.
Proof.
  exists [([97; 32; 32; 32; 10; 98]%N, 2); ([120; 10; 121]%N, 1)]. split; [|split; reflexivity].
  repeat constructor; intros W; apply wide_iff in W; discriminate W.
Qed.
Print Assumptions C80_trailing_spaces_refuted.

(** C81: with lines that are too wide, each column shows all its lines, in order, each in one row, and the columns after it
    wait while lines at most overflow_before before and overflow_after after a line that is too wide (DELAY_ALL: any line up to those) are shown. *)
Theorem C81_layout_partial is_bytes before after cols sep strategy :
  strategy = INTRUDE_ALL \/ strategy = DELAY_ALL -> cols <> [] -> Forall (tidy is_bytes) cols ->
  let row := layout is_bytes before after strategy (fun c k => rstrip is_bytes (line is_bytes c k)) all_free cols in
  exists n, merge_columns is_bytes before after cols (Some sep) strategy = Ok (text_of is_bytes sep row n) /\
    (forall m, done is_bytes before after strategy all_free cols m -> n <= m) /\
    (forall i c, nth_error cols i = Some c ->
       exists rs, StronglySorted lt rs /\ Forall (fun r => r < n) rs /\
         map (fun r => nth_error (row r) i) rs =
         map (fun k => Some (cell is_bytes before after strategy (fun c k => rstrip is_bytes (line is_bytes c k)) c k)) (seq 0 (height is_bytes c))).
Proof.
  intros S NE T row. assert (NI : strategy <> INVALID) by (destruct S as [-> | ->]; discriminate).
  assert (OE : overflow_error is_bytes strategy cols = false) by (destruct S as [-> | ->]; reflexivity).
  destruct (merge_spec is_bytes before after strategy cols (Some sep) NI NE OE) as (n & E & D & N). exists n. rewrite E, (text_same is_bytes before after strategy) by exact T.
  split; [reflexivity|]. split.
  - intros m M. destruct (le_lt_dec n m); [assumption|]. destruct (N m l M).
  - intros i c I. apply all_shown; assumption.
Qed.
Print Assumptions C81_layout_partial.
(** after the last line of a column overflow_after does nothing: "abc" in a column of width 1, overflow_after=1, beside "x": the empty line is missing *)
Theorem C81_overflow_after_refuted :
  merge_columns false 0 1 [([97; 98; 99]%N, 1); ([120]%N, 1)] (Some [32%N]) INTRUDE_ALL = Ok [97; 98; 99; 10; 32; 32; 120]%N /\
  merge_columns false 0 1 [([97; 98; 99; 10; 100]%N, 1); ([120]%N, 1)] (Some [32%N]) INTRUDE_ALL = Ok [97; 98; 99; 10; 100; 10; 32; 32; 120]%N.
Proof. split; reflexivity. Qed.
Print Assumptions C81_overflow_after_refuted.

(** "a\nbbb\nc\nd" (width 2) beside "x\ny" *)
Example ex_merge_intrude : merge_columns false 0 0 [([97; 10; 98; 98; 98; 10; 99; 10; 100]%N, 2); ([120; 10; 121]%N, 1)] (Some [124%N]) INTRUDE_ALL =
  Ok [97; 32; 124; 120; 10; 98; 98; 98; 10; 99; 32; 124; 121; 10; 100; 32; 124]%N.
Proof. reflexivity. Qed.
Example ex_merge_delay : merge_columns false 0 0 [([97; 10; 98; 98; 98; 10; 99; 10; 100]%N, 2); ([120; 10; 121]%N, 1)] (Some [124%N]) DELAY_ALL =
  Ok [97; 10; 98; 98; 98; 10; 99; 32; 124; 120; 10; 100; 32; 124; 121]%N.
Proof. reflexivity. Qed.
Example ex_merge_tidy : Forall (tidy false) [([97; 10; 98; 98; 98; 10; 99; 10; 100]%N, 2); ([120; 10; 121]%N, 1)].
Proof.
  assert (G : forall l : str, l = rstrip false l -> forall w, exists k, l = rstrip false l ++ repeat 32%N k /\ (k = 0 \/ length l <= w)) by (intros l E w; exists 0; rewrite app_nil_r; auto).
  constructor; [|constructor; [|constructor]]; intros l I; cbn in I; decompose [or] I; subst; try contradiction; apply G; reflexivity.
Qed.
Example ex_merge_before : merge_columns false 1 1 [([97; 10; 97; 10; 98; 98; 98; 10; 99; 10; 100]%N, 2); ([120; 10; 121]%N, 1)] (Some [124%N]) INTRUDE_ALL =
  Ok [97; 32; 124; 120; 10; 97; 10; 98; 98; 98; 10; 99; 10; 100; 32; 124; 121]%N.
Proof. reflexivity. Qed.

(** Exactly: without the hypothesis that lines are tidy, lines are shown with their trailing whitespace *)
Theorem C80_columns_exact is_bytes before after cols sep strategy :
  strategy <> INVALID -> cols <> [] -> Forall (fun c => ~ wide is_bytes c) cols ->
  merge_columns is_bytes before after cols (Some sep) strategy =
  Ok (text_of is_bytes sep (fun r => map (fun c => ljust (snd c) (line is_bytes c r)) cols) (list_max (map (height is_bytes) cols))).
Proof.
  intros NI NE NW.
  assert (OE : overflow_error is_bytes strategy cols = false).
  { destruct (overflow_error is_bytes strategy cols) eqn:OE; [|reflexivity]. apply wide_error in OE. destruct OE as [_ OE]. apply Exists_exists in OE. destruct OE as (c & I & W). rewrite Forall_forall in NW. destruct (NW c I W). }
  assert (IN : Forall (fun c => forall k, intrudes is_bytes before after strategy c k = false) cols).
  { rewrite Forall_forall in NW |- *. intros c I k. specialize (NW c I). unfold intrudes.
    assert (TW : forall m, In m (seq 0 (height is_bytes c)) -> too_wide is_bytes c m = false).
    { intros m M. destruct (too_wide is_bytes c m) eqn:E; [|reflexivity]. destruct NW. apply wide_iff. apply existsb_exists. exists m. auto. }
    destruct (k <? height is_bytes c); [|reflexivity]. cbn [andb]. destruct strategy; try reflexivity; apply Bool.not_true_iff_false; rewrite existsb_exists; intros (m & M1 & M2); rewrite (TW m M1) in M2; discriminate. }
  destruct (merge_spec is_bytes before after strategy cols (Some sep) NI NE OE) as (n & E & D & N). rewrite E.
  destruct (no_intrusion is_bytes before after strategy (line is_bytes) cols IN all_free (fun _ => eq_refl)) as [L _].
  destruct (no_intrusion is_bytes before after strategy (line is_bytes) cols IN all_free (fun _ => eq_refl)) as [_ DN].
  assert (EN : n = list_max (map (height is_bytes) cols)).
  { apply DN in D. assert (L1 : list_max (map (height is_bytes) cols) <= n) by (apply list_max_le; rewrite Forall_map; exact D).
    destruct (le_lt_dec n (list_max (map (height is_bytes) cols))) as [G | G]; [lia|]. destruct (N _ G). apply DN.
    apply (proj1 (Forall_map (height is_bytes) (fun h => h <= _) cols)). apply list_max_le. lia. }
  rewrite <- EN. f_equal. unfold text_of. do 2 f_equal. apply map_ext. intros r. rewrite L. reflexivity.
Qed.
Print Assumptions C80_columns_exact.
(** Exactly, without the hypothesis that lines are tidy; n is the first row by which all lines have been shown. *)
Theorem C81_layout_exact is_bytes before after cols sep strategy :
  strategy = INTRUDE_ALL \/ strategy = DELAY_ALL -> cols <> [] ->
  let row := layout is_bytes before after strategy (line is_bytes) all_free cols in
  exists n, merge_columns is_bytes before after cols (Some sep) strategy = Ok (text_of is_bytes sep row n) /\
    done is_bytes before after strategy all_free cols n /\
    (forall m, done is_bytes before after strategy all_free cols m -> n <= m) /\
    (forall i c, nth_error cols i = Some c ->
       exists rs, StronglySorted lt rs /\ Forall (fun r => r < n) rs /\
         map (fun r => nth_error (row r) i) rs =
         map (fun k => Some (cell is_bytes before after strategy (line is_bytes) c k)) (seq 0 (height is_bytes c))).
Proof.
  intros S NE row. assert (NI : strategy <> INVALID) by (destruct S as [-> | ->]; discriminate).
  assert (OE : overflow_error is_bytes strategy cols = false) by (destruct S as [-> | ->]; reflexivity).
  destruct (merge_spec is_bytes before after strategy cols (Some sep) NI NE OE) as (n & E & D & N). exists n. rewrite E.
  split; [reflexivity|]. split; [exact D|]. split.
  - intros m M. destruct (le_lt_dec n m); [assumption|]. destruct (N m l M).
  - intros i c I. apply all_shown; assumption.
Qed.
Print Assumptions C81_layout_exact.
(** C80_columns_exact, C81_layout_exact: the hypotheses are met by columns that are not tidy ("a   " is wider than its column only with its trailing spaces) *)
Example C80_exact_witness :
  let cols := [(u "a   " ++ [10%N] ++ u "b", 3); (u "x", 2)] in
  cols <> [] /\ RAISE <> INVALID /\ Forall (fun c => ~ wide false c) cols /\
  merge_columns false 0 0 cols (Some (u "|")) RAISE = Ok (u "a   |x" ++ [10%N] ++ u "b  |").
Proof.
  cbv zeta. split; [discriminate|]. split; [discriminate|]. split; [|vm_compute; reflexivity].
  repeat constructor; intros (l & I & L); cbn in I; decompose [or] I; subst; try contradiction; vm_compute in L; lia.
Qed.
Example C81_exact_witness :
  merge_columns false 0 1 [(u "abc", 2); (u "x" ++ [10%N] ++ u "y", 2)] (Some (u "|")) DELAY_ALL = Ok (u "abc" ++ [10%N] ++ u "  |x" ++ [10%N] ++ u "  |y").
Proof. vm_compute. reflexivity. Qed.
