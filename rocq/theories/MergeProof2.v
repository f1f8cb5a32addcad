(** Proofs about merge_columns: the layout. *)
From Verif Require Import LinesProof MergeModel MergeSpec MergeProof.

Lemma combine_nth {B} (f : nat -> str -> B) (g : nat -> B) (lines : list str) : forall n,
  (forall k, k < length lines -> f (n + k) (nth k lines []) = g k) -> map (fun p => f (fst p) (snd p)) (combine (seq n (length lines)) lines) = map g (seq 0 (length lines)).
Proof.
  revert f g. induction lines as [|l lines IH]; intros f g n H; [reflexivity|]. cbn [length seq combine map fst snd]. f_equal.
  - rewrite <- (H 0) by (cbn; lia). rewrite Nat.add_0_r. reflexivity.
  - rewrite <- (seq_shift (length lines) 0), map_map. apply (IH f (fun k => g (S k)) (S n)). intros k Hk. rewrite <- (H (S k)) by (cbn; lia). cbn [nth]. f_equal. lia.
Qed.
Section Rows.
  Context (is_bytes : bool) (before after : nat) (strategy : OverflowStrategy).
  Notation line := (line is_bytes).
  Notation height := (height is_bytes).
  Notation too_wide := (too_wide is_bytes).
  Notation intrudes := (intrudes is_bytes before after strategy).
  Notation cell := (cell is_bytes before after strategy line).
  Notation free_after := (free_after is_bytes before after strategy).
  Notation layout := (layout is_bytes before after strategy line).
  Notation done := (done is_bytes before after strategy).
  Definition padded (c : str * nat) : list (str * bool) := map (fun k => (cell c k, intrudes c k)) (seq 0 (height c)).
  Definition empty_column (c : str * nat) : str := repeat 32%N (snd c).
  Definition too_wide_somewhere (c : str * nat) : bool := existsb (too_wide c) (seq 0 (height c)).

  Lemma existsb_seq (f : str -> bool) (lines : list str) : existsb f lines = existsb (fun k => f (nth k lines [])) (seq 0 (length lines)).
  Proof.
    induction lines as [|l lines IH]; [reflexivity|]. cbn [existsb length seq nth]. f_equal. rewrite IH.
    rewrite <- seq_shift. generalize (seq 0 (length lines)). intros s. induction s as [|x s IHs]; [reflexivity|]. cbn [map existsb nth]. rewrite IHs. reflexivity.
  Qed.
  Lemma flags c (l : list (nat * nat)) : (forall k, k < height c -> inside l k = intrudes c k) -> spaced_up l ->
    (let '(current, overflows) := next_overflow l in loop2 (snd c) 0 (text_lines is_bytes (fst c)) current overflows false) = padded c.
  Proof.
    intros H S. assert (R : (let '(current, overflows) := next_overflow l in loop2 (snd c) 0 (text_lines is_bytes (fst c)) current overflows false) =
      map (fun p => (if inside l (fst p) then snd p else ljust (snd c) (snd p), inside l (fst p))) (combine (seq 0 (height c)) (text_lines is_bytes (fst c)))).
    { destruct l as [|[s e] l]; cbn [next_overflow]; rewrite loop2_flags; try reflexivity; try exact S; cbn; try (split; [lia|discriminate]); auto. }
    rewrite R. unfold padded, MergeSpec.height. apply (@combine_nth (str * bool) (fun k l0 => (if inside l k then l0 else ljust (snd c) l0, inside l k))).
    intros k Hk. cbn [Nat.add]. unfold MergeSpec.cell. rewrite H by exact Hk. reflexivity.
  Qed.
  Lemma pad_column_spec c : strategy <> INVALID ->
    pad_column is_bytes before after strategy c =
    if (match strategy with RAISE => too_wide_somewhere c | _ => false end) then Err OverflowError else Ok (padded c, empty_column c).
  Proof.
    intros NI. destruct c as [s w]. unfold pad_column. change (split1 _ _) with (text_lines is_bytes s).
    assert (NTH : forall k l, nth_error (text_lines is_bytes s) k = Some l -> too_wide (s, w) (0 + k) = true <-> w < length (rstrip is_bytes l)).
    { intros k l E. unfold MergeSpec.too_wide, MergeSpec.line. cbn [fst snd Nat.add]. rewrite (nth_error_nth _ _ _ E). apply Nat.ltb_lt. }
    assert (I0 : inv1 before after (fun m => too_wide (s, w) m = true) (Ov [] false 0 0) 0).
    { split; [exact I|]. split; [|split].
      - intros x. split; [intros [(s' & e' & [] & _)|[Q _]]; discriminate Q | intros (m & M & _); lia].
      - intros _ m M. lia.
      - discriminate. }
    destruct (loop1_inv is_bytes before after w (text_lines is_bytes s) (fun m => too_wide (s, w) m = true) 0 (Ov [] false 0 0) NTH I0) as (o & E1 & I1 & EF).
    cbn [Nat.add] in I1. destruct I1 as (SP & CV & HD & _). unfold covered in CV. rewrite EF in CV.
    assert (CV' : forall x, covers (overflows o) x <-> near before after (fun m => too_wide (s, w) m = true) (height (s, w)) x).
    { intros x. rewrite <- (CV x). split; [left; assumption | intros [Q|[Q _]]; [exact Q|discriminate]]. }
    destruct strategy eqn:ES; [contradiction| | |].
    - rewrite loop1_raise by reflexivity. rewrite (existsb_seq (fun l => w <? length (rstrip is_bytes l))).
      change (existsb (fun k => w <? length (rstrip is_bytes (nth k (text_lines is_bytes s) []))) (seq 0 (length (text_lines is_bytes s)))) with (too_wide_somewhere (s, w)).
      destruct (too_wide_somewhere (s, w)) eqn:ET; [reflexivity|]. cbn [rmap rev overflows]. f_equal.
      pose proof (flags (s, w) [] (fun k _ => ltac:(unfold MergeSpec.intrudes; rewrite ES, andb_false_r; reflexivity)) I) as F. cbn [fst snd] in F.
      cbn [next_overflow] in *. rewrite F. reflexivity.
    - rewrite E1. cbn [rmap]. f_equal.
      assert (IN : forall k, k < height (s, w) -> inside (rev (overflows o)) k = intrudes (s, w) k).
      { intros k Hk. apply Bool.eq_true_iff_eq. rewrite inside_iff. unfold MergeSpec.intrudes. rewrite ES, andb_true_iff, Nat.ltb_lt, existsb_exists.
        assert (CR : covers (rev (overflows o)) k <-> covers (overflows o) k) by (unfold covers; split; intros (a & b & I1 & I2); exists a, b; (split; [|exact I2]); apply in_rev; rewrite ?rev_involutive; exact I1).
        rewrite CR, CV'. unfold near. split.
        - intros (m & M1 & M2 & M3 & M4). split; [exact Hk|]. exists m. split; [apply in_seq; lia|]. rewrite M2. cbn [andb]. apply andb_true_intro. split; apply Nat.leb_le; lia.
        - intros (_ & m & M1 & M2). apply in_seq in M1. apply andb_prop in M2. destruct M2 as [M2 M4]. apply andb_prop in M2. destruct M2 as [M2 M3]. apply Nat.leb_le in M3, M4. exists m. repeat split; try assumption; lia. }
      pose proof (flags (s, w) _ IN (spaced_rev _ SP)) as F. cbn [fst snd] in F. destruct (next_overflow (rev (overflows o))). rewrite F. reflexivity.
    - rewrite E1. cbn [rmap]. f_equal.
      set (l := match overflows o with [] => [] | _ => [(0, overflow_end o)] end).
      assert (IN : forall k, k < height (s, w) -> inside l k = intrudes (s, w) k).
      { intros k Hk. apply Bool.eq_true_iff_eq. unfold MergeSpec.intrudes. rewrite ES, andb_true_iff, Nat.ltb_lt, existsb_exists. unfold l.
        unfold head_ok in HD. destruct (overflows o) as [|[s1 e1] r].
        - split; [discriminate|]. intros (_ & m & M1 & M2). apply in_seq in M1. apply andb_prop in M2. destruct M2 as [M2 _]. exfalso. apply (HD EF m); [exact (proj2 M1)|exact M2].
        - destruct HD as (_ & _ & _ & HD). destruct (HD EF) as (K1 & (m & K2 & K3 & K4) & K5). unfold inside. cbn [existsb fst snd Nat.leb andb]. rewrite orb_false_r, Nat.leb_le, K1. split.
          + intros L. split; [exact Hk|]. exists m. split; [apply in_seq; split; [lia|exact K2]|]. rewrite K3. cbn [andb]. apply Nat.leb_le. lia.
          + intros (_ & m' & M1 & M2). apply in_seq in M1. apply andb_prop in M2. destruct M2 as [M2 M3]. apply Nat.leb_le in M3. specialize (K5 m' (proj2 M1) M2). lia. }
      assert (EL : rev l = l) by (unfold l; destruct (overflows o); reflexivity). rewrite EL.
      assert (SL : spaced_up l) by (unfold l; destruct (overflows o); [exact I|cbn; repeat split; lia]).
      pose proof (flags (s, w) _ IN SL) as F. cbn [fst snd] in F. destruct (next_overflow l). rewrite F. reflexivity.
  Qed.
  Definition overflow_error (cols : list (str * nat)) : bool := match strategy with RAISE => existsb too_wide_somewhere cols | _ => false end.
  Lemma pad_columns_spec cols : strategy <> INVALID ->
    pad_columns is_bytes before after strategy cols = if overflow_error cols then Err OverflowError else Ok (map (fun c => (padded c, empty_column c)) cols).
  Proof.
    intros NI. induction cols as [|c cols IH]; [unfold overflow_error; destruct strategy; reflexivity|].
    cbn [pad_columns map]. rewrite pad_column_spec by exact NI. rewrite IH. unfold overflow_error. destruct strategy; try reflexivity.
    cbn [existsb]. destruct (too_wide_somewhere c); [reflexivity|]. cbn [orb rbind]. destruct (existsb too_wide_somewhere cols); reflexivity.
  Qed.

  (** the iterators before row r *)
  Fixpoint iterators (free : nat -> bool) (cols : list (str * nat)) (r : nat) : list (list (str * bool) * str) :=
    match cols with [] => [] | c :: cols => (skipn (count free r) (padded c), empty_column c) :: iterators (free_after free c) cols r end.
  Lemma count_S free r : count free (S r) = count free r + if free r then 1 else 0.
  Proof. unfold count. rewrite seq_S, filter_app, app_length. cbn [Nat.add filter]. destruct (free r); reflexivity. Qed.
  Lemma iterators_blocked free cols r : free r = false -> iterators free cols (S r) = iterators free cols r.
  Proof.
    revert free. induction cols as [|c cols IH]; intros free F; [reflexivity|]. cbn [iterators]. rewrite count_S, F, Nat.add_0_r. f_equal.
    apply IH. unfold MergeSpec.free_after. rewrite F. reflexivity.
  Qed.
  Lemma skipn_padded c k : skipn k (padded c) = if k <? height c then (cell c k, intrudes c k) :: skipn (S k) (padded c) else [].
  Proof.
    unfold padded. set (f := fun k => (cell c k, intrudes c k)). destruct (Nat.ltb_spec k (height c)) as [L | L].
    - assert (E : map f (seq 0 (height c)) = map f (seq 0 k) ++ f k :: map f (seq (S k) (height c - S k))).
      { replace (height c) with (k + S (height c - S k)) at 1 by lia. rewrite seq_app, map_app. reflexivity. }
      assert (LK : length (map f (seq 0 k)) = k) by (rewrite map_length, seq_length; reflexivity).
      rewrite E. rewrite (skipn_app k), LK, Nat.sub_diag, (skipn_all2 (map f (seq 0 k)) (n := k)), skipn_O, app_nil_l by lia. f_equal.
      rewrite (skipn_app (S k)), LK, (skipn_all2 (map f (seq 0 k)) (n := S k)), app_nil_l by lia. replace (S k - k) with 1 by lia. reflexivity.
    - apply skipn_all2. rewrite map_length, seq_length. exact L.
  Qed.
  Fixpoint finished (free : nat -> bool) (cols : list (str * nat)) (r : nat) : bool :=
    match cols with [] => true | c :: cols => (height c <=? count free r) && finished (free_after free c) cols r end.
  Lemma finished_done free cols r : finished free cols r = true <-> done free cols r.
  Proof.
    revert free. induction cols as [|c cols IH]; intros free; cbn [finished MergeSpec.done]; [tauto|]. rewrite andb_true_iff, Nat.leb_le, IH. reflexivity.
  Qed.
  Lemma blank_cell c k : height c <= k -> cell c k = empty_column c.
  Proof.
    intros L. unfold MergeSpec.cell, MergeSpec.intrudes. destruct (Nat.ltb_spec k (height c)); [lia|]. cbn [andb]. unfold MergeSpec.line. rewrite nth_overflow by exact L.
    unfold ljust. cbn [app length]. rewrite Nat.sub_0_r. reflexivity.
  Qed.
  Lemma row_layout cols : forall free r, free r = true ->
    row (iterators free cols r) = (layout free cols r, finished free cols r, iterators free cols (S r)).
  Proof.
    induction cols as [|c cols IH]; intros free r F; [reflexivity|]. cbn [iterators MergeSpec.layout finished]. rewrite F.
    rewrite skipn_padded, count_S, F, Nat.add_1_r. destruct (Nat.ltb_spec (count free r) (height c)) as [L | L].
    - destruct (Nat.leb_spec (height c) (count free r)); [lia|]. cbn [andb]. cbn [row].
      assert (FA : free_after free c r = negb (intrudes c (count free r))) by (unfold MergeSpec.free_after; rewrite F; reflexivity).
      destruct (intrudes c (count free r)) eqn:EI.
      + rewrite iterators_blocked by exact FA. f_equal. f_equal. f_equal. destruct cols; [reflexivity|]. cbn [MergeSpec.layout]. rewrite FA. reflexivity.
      + rewrite (IH (free_after free c) r FA). reflexivity.
    - destruct (Nat.leb_spec (height c) (count free r)); [|lia]. cbn [andb row].
      assert (NI : intrudes c (count free r) = false) by (unfold MergeSpec.intrudes; destruct (Nat.ltb_spec (count free r) (height c)); [lia|reflexivity]).
      assert (FA : free_after free c r = true) by (unfold MergeSpec.free_after; rewrite F, NI; reflexivity).
      rewrite (IH (free_after free c) r FA). rewrite blank_cell by exact L. rewrite (skipn_all2 (n := S (count free r)) (padded c)) by (unfold padded; rewrite map_length, seq_length; lia). reflexivity.
  Qed.
  Definition remaining (its : list (list (str * bool) * str)) : nat := list_sum (map (fun c => length (fst c)) its).
  Lemma row_remaining its : let '(_, exhausted, its') := row its in remaining its' <= remaining its /\ (exhausted = false -> remaining its' < remaining its).
  Proof.
    induction its as [|[l e] its IH]; [cbn; split; [auto|discriminate]|]. unfold remaining in *. cbn [row]. destruct l as [|[s [|]] l].
    - destruct (row its) as [[rr ex] its']. cbn [map list_sum fst length Nat.add fold_right] in *. exact IH.
    - cbn [map list_sum fst length Nat.add fold_right]. split; [lia|]. intros _. lia.
    - destruct (row its) as [[rr ex] its']. cbn [map list_sum fst length Nat.add fold_right] in *. unfold list_sum in *. split; [lia|]. intros _. lia.
  Qed.
  Lemma rows_spec sep cols : forall fuel r, remaining (iterators all_free cols r) < fuel ->
    exists n, rows is_bytes fuel sep (iterators all_free cols r) = Some (map (fun r => rstrip is_bytes (join sep (layout all_free cols r))) (seq r n)) /\
      done all_free cols (r + n) /\ forall m, m < n -> ~ done all_free cols (r + m).
  Proof.
    induction fuel as [|fuel IH]; intros r L; [lia|]. cbn [rows]. pose proof (row_remaining (iterators all_free cols r)) as R. rewrite row_layout in R |- * by reflexivity.
    destruct R as [R1 R2]. destruct (finished all_free cols r) eqn:EF.
    - exists 0. split; [reflexivity|]. rewrite Nat.add_0_r. split; [apply finished_done, EF|lia].
    - destruct (IH (S r)) as (n & E & D & N); [specialize (R2 eq_refl); lia|]. exists (S n). rewrite E. split; [reflexivity|]. split; [rewrite Nat.add_succ_r; exact D|].
      intros m M. destruct m as [|m].
      + rewrite Nat.add_0_r. intros Q. apply finished_done in Q. congruence.
      + rewrite Nat.add_succ_r. apply N. lia.
  Qed.
  Lemma iterators_0 free cols : iterators free cols 0 = map (fun c => (padded c, empty_column c)) cols.
  Proof. revert free. induction cols as [|c cols IH]; intros free; [reflexivity|]. cbn [iterators map]. rewrite IH. reflexivity. Qed.
  Lemma merge_spec cols sep : strategy <> INVALID -> cols <> [] -> overflow_error cols = false ->
    exists n, merge_columns is_bytes before after cols sep strategy =
      Ok (text_of is_bytes (match sep with None => [32%N] | Some s => s end) (layout all_free cols) n) /\
      done all_free cols n /\ forall m, m < n -> ~ done all_free cols m.
  Proof.
    intros NI NE OE. destruct (rows_spec (match sep with None => [32%N] | Some s => s end) cols (S (remaining (iterators all_free cols 0))) 0 ltac:(lia)) as (n & E & D & N).
    exists n. split; [|split; assumption]. unfold merge_columns.
    assert (G : rbind (pad_columns is_bytes before after strategy cols) (fun columns => match rows is_bytes (S (list_sum (map (fun c => length (fst c)) columns))) (match sep with None => [32%N] | Some s => s end) columns with
        | Some lines => Ok (rstrip is_bytes (join [newline_char] lines)) | None => Err RecursionError end) = Ok (text_of is_bytes (match sep with None => [32%N] | Some s => s end) (layout all_free cols) n)).
    { rewrite pad_columns_spec, OE by exact NI. cbn [rbind]. rewrite iterators_0 in E. unfold remaining in E. rewrite E. reflexivity. }
    destruct strategy; [contradiction| | |]; destruct cols; try contradiction; exact G.
  Qed.
  Lemma merge_error cols sep : strategy <> INVALID -> cols <> [] -> overflow_error cols = true -> merge_columns is_bytes before after cols sep strategy = Err OverflowError.
  Proof.
    intros NI NE OE. unfold merge_columns. rewrite pad_columns_spec, OE by exact NI. destruct strategy; [contradiction| | |]; destruct cols; try contradiction; reflexivity.
  Qed.
End Rows.
